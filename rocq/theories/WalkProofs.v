(** Trees of well-linked heaps and the steps of the walks over them. *)
From Coq Require Import List Arith NArith Bool Lia ZifyBool ZifyNat ZifyN.
From Verif Require Import Base HeapModel HeapSpec HeapInv HeapExec HeapTree HistModel TreeSpec WalkModel WalkSpec.
Import ListNotations.
Local Open Scope dom_scope.

(** The siblings [l], children of [p]. *)
Fixpoint chain (h : heap) (p : id) (l : list id) : Prop :=
  match l with
  | [] => True
  | x :: r => (exists n, h x = Some n /\ n_type n <> ATTRIBUTE /\ n_parent n = Some p /\ n_next n = hd_error r) /\ chain h p r
  end.

Lemma chain_in : forall h p l c, chain h p l -> In c l -> exists n, h c = Some n /\ n_type n <> ATTRIBUTE /\ n_parent n = Some p.
Proof.
  induction l; simpl; intros c C I; [tauto|]. destruct C as [(n & A & B & D & E) C]. destruct I as [->|I]; eauto.
Qed.

Lemma chain_of_fwd : forall h p l o, fwd h o l ->
  (forall c, In c l -> exists n, h c = Some n /\ n_parent n = Some p /\ n_type n <> ATTRIBUTE) -> chain h p l /\ o = hd_error l.
Proof.
  intros h p l o F. induction F; intros HM. { split; simpl; auto. }
  destruct IHF as [C E]. { intros c I. apply HM. right; auto. }
  split; auto. split; auto. destruct (HM i) as (m & A & B & D); [left; auto|].
  exists n. assert (m = n) by congruence; subst. auto.
Qed.

(** The heap holds the tree (attributes left out). *)
Inductive tr (h : heap) : rose -> Prop :=
| tr_T i ks n :
    h i = Some n -> n_first n = hd_error (map root ks) -> n_last n = last_error (map root ks) ->
    chain h i (map root ks) -> NoDup (map root ks) -> Forall (tr h) ks -> tr h (T i [] ks).

Lemma tr_inv : forall h i ats ks, tr h (T i ats ks) -> exists n,
  h i = Some n /\ n_first n = hd_error (map root ks) /\ n_last n = last_error (map root ks) /\
  chain h i (map root ks) /\ NoDup (map root ks) /\ Forall (tr h) ks.
Proof. intros h i ats ks R. inversion R; subst. exists n. auto 10. Qed.

Lemma fwd_of_chain : forall h p l, chain h p l -> fwd h (hd_error l) l.
Proof.
  induction l; simpl; intros C. { constructor. }
  destruct C as [(n & A & B & D & E) C]. econstructor; eauto. rewrite E. auto.
Qed.

Lemma tr_children : forall h i ats ks, tr h (T i ats ks) -> children h i (map root ks).
Proof.
  intros h i ats ks R. destruct (tr_inv _ _ _ _ R) as (n & A & B & C & D & E & F).
  exists n. split; auto. rewrite B. eapply fwd_of_chain; eauto.
Qed.

Lemma children_det : forall h i l l', children h i l -> children h i l' -> l = l'.
Proof.
  intros h i l l' (n & A & B) (n' & A' & B'). assert (n' = n) by congruence; subst. eapply fwd_det; eauto.
Qed.

(** Document order, by trees. *)
Lemma tr_order : forall h t, tr h t -> order h (root t) (pre t).
Proof.
  intros h t. induction t using rose_ind2. intros R. pose proof (tr_children _ _ _ _ R) as C.
  destruct (tr_inv _ _ _ _ R) as (n & _ & _ & _ & _ & _ & F). simpl.
  rewrite flat_map_concat_map. apply order_node with (l := map root ks); auto.
  clear R C. induction ks; simpl; constructor; inversion H0; inversion F; subst; auto.
Qed.

Lemma order_pre : forall h t, tr h t -> forall l, order h (root t) l -> l = pre t.
Proof.
  intros h t. induction t using rose_ind2. intros R l O. cbn [root] in O.
  pose proof (tr_children _ _ _ _ R) as C. destruct (tr_inv _ _ _ _ R) as (n & _ & _ & _ & _ & _ & F).
  inversion O as [? l0 ls C' F2]; subst. rewrite (children_det _ _ _ _ C' C) in F2. cbn [pre]. f_equal.
  rewrite flat_map_concat_map. f_equal. clear R C C' O n l0.
  revert ls F2. induction ks; intros ls F2; inversion F2; subst; auto. simpl. inversion H0; inversion F; subst. f_equal; auto.
Qed.

Lemma tr_live : forall h t, tr h t -> forall j, In j (pre t) -> live h j.
Proof.
  intros h t. induction t using rose_ind2. intros R j I. destruct (tr_inv _ _ _ _ R) as (n & A & _ & _ & _ & _ & F).
  simpl in I. destruct I as [->|I]; [exists n; auto|]. apply in_flat_map in I. destruct I as (k & K1 & K2).
  rewrite Forall_forall in *. eauto.
Qed.

Lemma tr_anc : forall h t, tr h t -> forall j, In j (pre t) -> anc h (root t) j.
Proof.
  intros h t. induction t using rose_ind2. intros R j I. destruct (tr_inv _ _ _ _ R) as (n & A & _ & _ & C & _ & F).
  simpl in *. destruct I as [->|I]; [constructor|]. apply in_flat_map in I. destruct I as (k & K1 & K2).
  rewrite Forall_forall in *. eapply anc_trans; [|apply H0; eauto].
  destruct (chain_in _ _ _ (root k) C) as (m & C1 & C2 & C3). { apply in_map; auto. }
  econstructor; eauto. constructor.
Qed.

Lemma root_in_pre : forall t, In (root t) (pre t).
Proof. destruct t; left; reflexivity. Qed.

Section Linked.
  Variable s : st.
  Hypothesis L : linked s.

  Lemma linked_rooted : forall i, live (s_heap s) i -> rooted (s_heap s) i.
  Proof.
    intros i Li. destruct (ln_ends _ L _ Li) as (r & A & ([n Hn] & P)). unfold parent_of in P. rewrite Hn in P.
    clear Li. induction A. { econstructor; eauto. } eapply rooted_step; eauto.
  Qed.

  Lemma linked_wfL : wfL (s_heap s) (s_nxt s).
  Proof. intros i n H. apply (ln_alloc _ L). exists n; auto. Qed.

  Lemma linked_list : forall p n, s_heap s p = Some n -> exists l, consistent_children (s_heap s) p l /\
    chain (s_heap s) p l /\ n_first n = hd_error l /\ n_last n = last_error l /\ NoDup l.
  Proof.
    intros p n H. destruct (ln_lists _ L p) as (l & CC); [exists n; auto|]. exists l. split; auto.
    destruct CC as (m & A & F & B & ND & M). assert (m = n) by congruence; subst m.
    destruct (chain_of_fwd _ p _ _ F) as [C E]. { intros c I. apply M; auto. }
    split; auto. split; auto. split; auto.
    unfold last_error. inversion B; subst; auto.
  Qed.

  Lemma linked_depth_bound : forall i d, depth (s_heap s) i d -> d < s_nxt s.
  Proof.
    intros i d D. assert (Hi : live (s_heap s) i) by (inversion D; eexists; eauto).
    pose proof (linked_rooted _ Hi) as Ri. destruct (rooted_achain _ _ Ri) as [l A].
    pose proof (achain_bound _ _ _ _ linked_wfL Ri A). pose proof (achain_length _ _ _ D _ A). lia.
  Qed.

  Lemma linked_tree_gen : forall k i d, depth (s_heap s) i d -> s_nxt s - d <= k -> d < s_nxt s ->
    exists t, tr (s_heap s) t /\ root t = i.
  Proof.
    induction k; intros i d D K B. { lia. }
    assert (Hi : exists n, s_heap s i = Some n) by (inversion D; eauto). destruct Hi as [n Hn].
    destruct (linked_list _ _ Hn) as (l & CC & C & E1 & E2 & ND).
    assert (EX : exists ts, map root ts = l /\ Forall (tr (s_heap s)) ts).
    { clear E1 E2 ND CC. induction l as [|j l]. { exists []; split; auto. }
      destruct C as [(m & A1 & A2 & A3 & A4) C]. destruct (IHl C) as (ts & T1 & T2).
      assert (Dj : depth (s_heap s) j (S d)) by (econstructor; eauto).
      destruct (IHk _ _ Dj) as (t & R & Q). { lia. } { eapply linked_depth_bound; eauto. }
      exists (t :: ts). split; [simpl; congruence|constructor; auto]. }
    destruct EX as (ts & <- & F). exists (T i [] ts). split; auto. econstructor; eauto.
  Qed.

  Lemma linked_tree : forall i, live (s_heap s) i -> exists t, tr (s_heap s) t /\ root t = i.
  Proof.
    intros i Li. destruct (rooted_depth _ _ (linked_rooted _ Li)) as [d D].
    eapply linked_tree_gen; eauto. eapply linked_depth_bound; eauto.
  Qed.

  Lemma tr_nodup : forall t, tr (s_heap s) t -> NoDup (pre t).
  Proof.
    intros t. induction t using rose_ind2. intros R. destruct (tr_inv _ _ _ _ R) as (n & A & _ & _ & C & ND & F).
    rewrite Forall_forall in *. simpl.
    assert (PAR : forall k, In k ks -> exists m, s_heap s (root k) = Some m /\ n_parent m = Some i /\ tr (s_heap s) k).
    { intros k I. destruct (chain_in _ _ _ (root k) C) as (m & C1 & C2 & C3). { apply in_map; auto. } exists m; auto. }
    destruct (map_root_inj _ ND) as [NK1 NK2].
    assert (Li : live (s_heap s) i) by (exists n; auto).
    destruct (rooted_depth _ _ (linked_rooted _ Li)) as [d D].
    constructor.
    - intros I. apply in_flat_map in I. destruct I as (k & K1 & K2).
      destruct (PAR _ K1) as (m & C1 & C2 & C3).
      assert (AN : anc (s_heap s) (root k) i) by (apply tr_anc; auto).
      refine (anc_proper_neq (s_heap s) (root k) m i (root k) _ C1 C2 AN eq_refl).
      apply linked_rooted. exists m; auto.
    - apply NoDup_flat_map; auto. intros x y Ix Iy NE z Jx Jy.
      destruct (PAR x Ix) as (mx & A1 & A2 & A3). destruct (PAR y Iy) as (my & B1 & B2 & B3).
      apply (NK2 x y Ix Iy NE). apply (anc_same_depth (s_heap s) (root x) (root y) z (S d)).
      + apply tr_anc; auto. + apply tr_anc; auto. + econstructor; eauto. + econstructor; eauto.
  Qed.

  Lemma tr_size : forall t, tr (s_heap s) t -> length (pre t) <= s_nxt s.
  Proof.
    intros t R. rewrite <- (seq_length (s_nxt s) 0). apply NoDup_incl_length.
    - apply tr_nodup; auto.
    - intros j I. destruct (tr_live _ _ R _ I) as [n Hn]. apply in_seq. pose proof (linked_wfL _ _ Hn). lia.
  Qed.

  (** A node without a next sibling is the last child of its parent. *)
  Lemma last_iff : forall i n p np, s_heap s i = Some n -> n_type n <> ATTRIBUTE -> n_parent n = Some p ->
    s_heap s p = Some np -> (n_next n = None <-> n_last np = Some i).
  Proof.
    intros i n p np H NA P HP. destruct (linked_list _ _ HP) as (l & CC & C & E1 & E2 & ND).
    assert (I : In i l). { destruct CC as (m & _ & _ & _ & _ & M). apply M. eauto. }
    rewrite E2. clear CC E1 E2. revert C ND I. induction l as [|x l]; intros C ND I; [destruct I|].
    destruct C as [(m & A1 & A2 & A3 & A4) C]. inversion ND; subst. destruct I as [->|I].
    - assert (m = n) by congruence; subst. rewrite A4. rewrite last_error_cons. destruct l as [|y l]; simpl.
      + split; auto.
      + split; [discriminate|]. intros E. exfalso.
        destruct (last_error (y :: l)) eqn:LE. 2:{ apply last_error_none in LE. discriminate. }
        inversion E; subst. apply H2. apply last_error_in; auto.
    - destruct (IHl C H3 I) as [X Y]. rewrite last_error_cons. destruct (last_error l) eqn:LE.
      + split; auto.
      + apply last_error_none in LE. subst. destruct I.
  Qed.
End Linked.

(** ** What follows a subtree *)

(** Leaving [i] upwards, below [top]: the next node, or none. *)
Inductive exits (h : heap) (top : id) : id -> option id -> Prop :=
| ex_next i n p x : h i = Some n -> n_type n <> ATTRIBUTE -> n_parent n = Some p -> n_next n = Some x -> exits h top i (Some x)
| ex_end i n : h i = Some n -> n_type n <> ATTRIBUTE -> n_next n = None -> n_parent n = Some top -> exits h top i None
| ex_up i n p o : h i = Some n -> n_type n <> ATTRIBUTE -> n_next n = None -> n_parent n = Some p -> p <> top ->
    exits h top p o -> exits h top i o.

(** The node after [x] in document order below [top]. *)
Definition steps (h : heap) (top x : id) (o : option id) : Prop :=
  exists n, h x = Some n /\ n_type n <> ATTRIBUTE /\
    match n_first n with Some y => o = Some y | None => exits h top x o end.

Definition opt_list (o : option id) : list id := match o with Some x => [x] | None => [] end.

Lemma split_at : forall (A : Type) (l1 l2 a : list A) x b, l1 ++ l2 = a ++ x :: b ->
  (exists b1, l1 = a ++ x :: b1 /\ b = b1 ++ l2) \/ (exists a2, a = l1 ++ a2 /\ l2 = a2 ++ x :: b).
Proof.
  induction l1 as [|y l1]; simpl; intros l2 a x b E. { right. exists a; auto. }
  destruct a as [|z a]; simpl in E; inversion E; subst.
  - left. exists l1. auto.
  - destruct (IHl1 _ _ _ _ H1) as [(b1 & -> & ->)|(a2 & -> & ->)]; [left; exists b1|right; exists a2]; auto.
Qed.

Section Positions.
  Variable h : heap.
  Variable top : id.

  Definition pos_tree (t : rose) : Prop := forall k a x b, tr h t -> 
    (exists n, h (root t) = Some n /\ n_type n <> ATTRIBUTE) ->
    exits h top (root t) k -> ~ In top (pre t) ->
    pre t = a ++ x :: b -> steps h top x (hd_error (b ++ opt_list k)).

  Lemma pos_forest : forall ks, Forall pos_tree ks -> forall p k a x b, Forall (tr h) ks -> chain h p (map root ks) ->
    (p = top /\ k = None \/ p <> top /\ exits h top p k) ->
    ~ In top (flat_map pre ks) -> flat_map pre ks = a ++ x :: b -> steps h top x (hd_error (b ++ opt_list k)).
  Proof.
    induction ks as [|t ks]; intros FP p k a x b FT C K NT E. { destruct a; discriminate. }
    inversion FP; subst. inversion FT; subst. cbn [map chain] in C. destruct C as [(n & A1 & A2 & A3 & A4) C].
    cbn [flat_map] in *.
    destruct (split_at _ _ _ _ _ _ E) as [(b1 & E1 & ->)|(a2 & -> & E2)].
    - destruct ks as [|t2 ks].
      + simpl. rewrite app_nil_r. eapply H1; eauto.
        * cbn [map hd_error] in A4. destruct K as [[-> ->]|[NE K]].
          -- eapply ex_end; eauto.
          -- eapply ex_up; eauto.
        * intros I. apply NT. apply in_or_app; auto.
      + assert (S1 : steps h top x (hd_error (b1 ++ opt_list (Some (root t2))))).
        { eapply H1; eauto.
          - eapply ex_next; eauto.
          - intros I. apply NT. apply in_or_app; auto. }
        destruct b1; auto. cbn [app flat_map opt_list hd_error] in *. destruct t2. exact S1.
    - eapply IHks; eauto. intros I. apply NT. apply in_or_app; auto.
  Qed.

  Lemma pos_tree_all : forall t, pos_tree t.
  Proof.
    intros t. induction t using rose_ind2. intros k a x b R (n & N1 & N2) EX NT E.
    destruct (tr_inv _ _ _ _ R) as (m & A & E1 & E2 & C & ND & F). cbn [root] in *.
    assert (m = n) by congruence; subst m. cbn [pre] in E, NT. destruct a as [|y a]; cbn [app] in E; inversion E; subst.
    - exists n. split; auto. split; auto. rewrite E1. destruct ks as [|t2 ks].
      + simpl. destruct k; auto.
      + destruct t2. reflexivity.
    - eapply (pos_forest ks H0 y k); eauto.
      + right. split; auto. intros ->. apply NT. left; auto.
      + intros I. apply NT. right; auto.
  Qed.

  (** The walk below a node. *)
  Lemma pos_desc : forall ats ks a x b, tr h (T top ats ks) -> ~ In top (flat_map pre ks) -> flat_map pre ks = a ++ x :: b ->
    steps h top x (hd_error b).
  Proof.
    intros ats ks a x b R NT E. destruct (tr_inv _ _ _ _ R) as (m & A & E1 & E2 & C & ND & F).
    assert (S1 : steps h top x (hd_error (b ++ opt_list None))).
    { eapply (pos_forest ks); eauto. rewrite Forall_forall. intros; apply pos_tree_all. }
    simpl in S1. rewrite app_nil_r in S1. auto.
  Qed.
End Positions.

(** ** The code's steps *)
Section Code.
  Variable s : st.
  Hypothesis L : linked s.
  Let h := s_heap s.

  Lemma chain_len : forall i l, achain h (Some i) l -> length l <= s_nxt s.
  Proof.
    intros i l A. inversion A; subst. assert (live h i) by (eexists; eauto).
    pose proof (achain_bound _ _ _ _ (linked_wfL _ L) (linked_rooted _ L _ H) A). auto.
  Qed.

  Lemma exits_live : forall top i o, exits h top i o -> live h i.
  Proof. intros top i o E. inversion E; eexists; eauto. Qed.

  Lemma exits_next : forall top i o n y, exits h top i o -> h i = Some n -> n_next n = Some y -> o = Some y.
  Proof. intros top i o n y E H N1. inversion E; subst; congruence. Qed.

  (** The climb of nodelist.c. *)
  Lemma climb_exits : forall top i o, exits h top i o -> forall n l f, h i = Some n ->
    achain h (n_parent n) l -> length l < f ->
    exists j nj, climb f top i (n_parent n) s = Ok j s /\ h j = Some nj /\ n_next nj = o.
  Proof.
    intros top i o E. induction E as [i n p x H NA H0 H1|i n H NA H0 H1|i n p o H NA H1 H2 H3 E IHE];
      intros m l f Hm AC LF; assert (m = n) by (unfold h in *; congruence); subst m;
      (destruct f; [lia|]); cbn [climb].
    - exists i, n. split; auto. rewrite H0.
      destruct (oid_eqb (Some p) (Some top)) eqn:EP; [reflexivity|].
      rewrite H0 in AC. destruct (achain_some _ _ _ AC) as (np & l' & -> & HP & _).
      rewrite (bind_ok _ _ _ _ _ _ _ _ (deref_ok p s)). rewrite (bind_ok _ _ _ _ _ _ _ _ (load_ok _ _ _ HP)).
      destruct (oid_eqb (n_last np) (Some i)) eqn:EL; [|reflexivity].
      apply oid_eqb_eq in EL. apply (last_iff _ L _ _ _ _ H NA H0 HP) in EL. congruence.
    - exists i, n. split; auto. rewrite H1, oid_eqb_refl. reflexivity.
    - rewrite H2 in *. destruct (achain_some _ _ _ AC) as (np & l' & -> & HP & AC').
      rewrite oid_eqb_some. destruct (Nat.eqb_spec p top); [congruence|].
      rewrite (bind_ok _ _ _ _ _ _ _ _ (deref_ok p s)). rewrite (bind_ok _ _ _ _ _ _ _ _ (load_ok _ _ _ HP)).
      assert (EL : n_last np = Some i) by (apply (last_iff _ L _ _ _ _ H NA H2 HP); auto).
      rewrite EL, oid_eqb_refl. apply (IHE np l' f); auto. simpl in LF; lia.
  Qed.

  Lemma parent_chain : forall i n, h i = Some n -> exists l, achain h (n_parent n) l /\ length l < s_nxt s.
  Proof.
    intros i n H. assert (Li : live h i) by (exists n; auto).
    destruct (rooted_achain _ _ (linked_rooted _ L _ Li)) as [l A].
    pose proof (chain_len _ _ A). destruct (achain_some _ _ _ A) as (m & l' & -> & Hm & A').
    assert (m = n) by (unfold h in *; congruence); subst. exists l'. split; [exact A'|]. simpl in *. lia.
  Qed.

  Lemma list_next_ok : forall l x o, nl_type l <> CHILDREN -> steps h (nl_root l) x o -> list_next l x s = Ok o s.
  Proof.
    intros l x o NC (n & A & NA & S1). unfold list_next. rewrite (bind_ok _ _ _ _ _ _ _ _ (load_ok _ _ _ A)).
    assert (G : match n_first n with
      | Some x => ret (Some x)
      | None => match n_next n with
                | Some x => ret (Some x)
                | None => bind (with_fuel (fun f => climb f (nl_root l) x (n_parent n))) (fun j => bind (load j) (fun nj => ret (n_next nj)))
                end
      end s = Ok o s).
    { destruct (n_first n). { subst. reflexivity. }
      destruct (n_next n) as [y|] eqn:NX.
      - rewrite (exits_next _ _ _ _ _ S1 A NX). reflexivity.
      - destruct (parent_chain _ _ A) as (c & AC & LC).
        destruct (climb_exits _ _ _ S1 n c (fuel_of s) A AC) as (j & nj & E & J1 & J2). { unfold fuel_of; lia. }
        rewrite (bind_ok _ _ _ _ _ _ _ _ (E : with_fuel _ s = _)). rewrite (bind_ok _ _ _ _ _ _ _ _ (load_ok _ _ _ J1)).
        rewrite J2. reflexivity. }
    destruct (nl_type l); auto; congruence.
  Qed.

  (** The climb of html_collection.c, below the root. *)
  Lemma climb_to_exits : forall top i o, exits h top i o -> forall n l f, h i = Some n -> i <> top ->
    achain h (n_parent n) l -> length l + 1 < f ->
    exists j, climb_to f top i (n_parent n) s = Ok j s /\
      (if Nat.eqb j top then o = None else exists nj, h j = Some nj /\ n_next nj = o).
  Proof.
    intros top i o E. induction E as [i n p x H NA H0 H1|i n H NA H0 H1|i n p o H NA H1 H2 H3 E IHE];
      intros m l f Hm NT AC LF; assert (m = n) by (unfold h in *; congruence); subst m;
      (destruct f; [lia|]); cbn [climb_to];
      (destruct (Nat.eqb_spec i top) as [X|_]; [congruence|]).
    - exists i. rewrite H0 in *. destruct (achain_some _ _ _ AC) as (np & l' & -> & HP & _).
      rewrite (bind_ok _ _ _ _ _ _ _ _ (deref_ok p s)). rewrite (bind_ok _ _ _ _ _ _ _ _ (load_ok _ _ _ HP)).
      destruct (oid_eqb (n_last np) (Some i)) eqn:EL.
      { apply oid_eqb_eq in EL. apply (last_iff _ L _ _ _ _ H NA H0 HP) in EL. congruence. }
      split; [reflexivity|]. destruct (Nat.eqb_spec i top); [congruence|]. exists n; auto.
    - exists top. rewrite H1 in *. destruct (achain_some _ _ _ AC) as (np & l' & -> & HP & _).
      rewrite (bind_ok _ _ _ _ _ _ _ _ (deref_ok top s)). rewrite (bind_ok _ _ _ _ _ _ _ _ (load_ok _ _ _ HP)).
      assert (EL : n_last np = Some i) by (apply (last_iff _ L _ _ _ _ H NA H1 HP); auto).
      rewrite EL, oid_eqb_refl. destruct f; [simpl in LF; lia|]. cbn [climb_to]. rewrite Nat.eqb_refl. auto.
    - rewrite H2 in *. destruct (achain_some _ _ _ AC) as (np & l' & -> & HP & AC').
      rewrite (bind_ok _ _ _ _ _ _ _ _ (deref_ok p s)). rewrite (bind_ok _ _ _ _ _ _ _ _ (load_ok _ _ _ HP)).
      assert (EL : n_last np = Some i) by (apply (last_iff _ L _ _ _ _ H NA H2 HP); auto).
      rewrite EL, oid_eqb_refl. apply (IHE np l' f); auto. simpl in LF; lia.
  Qed.

  Lemma col_next_ok : forall top x o, x <> top -> steps h top x o -> col_next top x s = Ok o s.
  Proof.
    intros top x o NT (n & A & NA & S1). unfold col_next. rewrite (bind_ok _ _ _ _ _ _ _ _ (load_ok _ _ _ A)).
    destruct (n_first n). { subst. reflexivity. }
    destruct (n_next n) as [y|] eqn:NX.
    - rewrite (exits_next _ _ _ _ _ S1 A NX). reflexivity.
    - destruct (parent_chain _ _ A) as (c & AC & LC).
      destruct (climb_to_exits _ _ _ S1 n c (fuel_of s) A NT AC) as (j & E & J). { unfold fuel_of; lia. }
      rewrite (bind_ok _ _ _ _ _ _ _ _ (E : with_fuel _ s = _)). destruct (Nat.eqb j top).
      + subst; reflexivity.
      + destruct J as (nj & J1 & J2). rewrite (bind_ok _ _ _ _ _ _ _ _ (load_ok _ _ _ J1)). rewrite J2. reflexivity.
  Qed.

  (** The climb of _dom_find_element_by_id, below the root. *)
  Lemma find_up_exits : forall top i o, exits h top i o -> forall n l f, h i = Some n ->
    achain h (n_parent n) l -> length l < f -> find_up f top i s = Ok o s.
  Proof.
    intros top i o E. induction E as [i n p x H NA H0 H1|i n H NA H0 H1|i n p o H NA H1 H2 H3 E IHE];
      intros m l f Hm AC LF; assert (m = n) by (unfold h in *; congruence); subst m;
      (destruct f; [lia|]); cbn [find_up]; rewrite (bind_ok _ _ _ _ _ _ _ _ (load_ok _ _ _ H)).
    - rewrite H1. reflexivity.
    - rewrite H0, H1, oid_eqb_refl. reflexivity.
    - rewrite H1, H2 in *. destruct (achain_some _ _ _ AC) as (np & l' & -> & HP & AC').
      rewrite oid_eqb_some. destruct (Nat.eqb_spec p top); [congruence|].
      apply (IHE np l' f); auto. simpl in LF; lia.
  Qed.
End Code.
