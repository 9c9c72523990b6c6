(** Subtrees of the heap as rose trees; the walk of
    _dom_node_dispatch_node_change_event visits the proper descendants in
    document order. *)
From Coq Require Import List Arith NArith Bool Lia ZifyBool ZifyNat ZifyN.
From Verif Require Import Base HeapModel HeapSpec HeapInv HeapExec.
Import ListNotations.
Local Open Scope dom_scope.

(** A node with its attributes and its children. *)
Inductive rose : Type := T (i : id) (ats ks : list rose).

Definition root (t : rose) : id := match t with T i _ _ => i end.
Definition kids (t : rose) : list rose := match t with T _ _ ks => ks end.
Definition atts (t : rose) : list rose := match t with T _ ats _ => ats end.

Fixpoint pre (t : rose) : list id := match t with T i _ ks => i :: flat_map pre ks end.
Fixpoint nodes (t : rose) : list id := match t with T i ats ks => i :: flat_map nodes ats ++ flat_map nodes ks end.

Section RoseInd.
  Variable P : rose -> Prop.
  Hypothesis H : forall i ats ks, Forall P ats -> Forall P ks -> P (T i ats ks).
  Fixpoint rose_ind2 (t : rose) : P t :=
    match t with
    | T i ats ks =>
        H i ats ks
          ((fix go (l : list rose) : Forall P l :=
              match l with [] => Forall_nil P | x :: r => Forall_cons x (rose_ind2 x) (go r) end) ats)
          ((fix go (l : list rose) : Forall P l :=
              match l with [] => Forall_nil P | x :: r => Forall_cons x (rose_ind2 x) (go r) end) ks)
    end.
End RoseInd.

Definition is_attr_of (h : heap) (e a : id) : Prop :=
  exists n, h a = Some n /\ n_type n = ATTRIBUTE /\ n_parent n = Some e.

(** The heap holds the tree; nothing is said of the parent and sibling links of its root. *)
Inductive repr (h : heap) : rose -> Prop :=
| repr_T i ats ks n :
    h i = Some n ->
    n_first n = hd_error (map root ks) -> n_last n = last_error (map root ks) ->
    n_attrs n = map root ats ->
    seg h i None (map root ks) None -> NoDup (map root ks) ->
    Forall (fun t => is_attr_of h i (root t)) ats ->
    Forall (repr h) ats -> Forall (repr h) ks ->
    repr h (T i ats ks).

Lemma repr_inv : forall h i ats ks, repr h (T i ats ks) -> exists n,
  h i = Some n /\ n_first n = hd_error (map root ks) /\ n_last n = last_error (map root ks) /\
  n_attrs n = map root ats /\ seg h i None (map root ks) None /\ NoDup (map root ks) /\
  Forall (fun t => is_attr_of h i (root t)) ats /\ Forall (repr h) ats /\ Forall (repr h) ks.
Proof. intros h i ats ks R. inversion R; subst. exists n. repeat (split; auto). Qed.

Lemma root_in_nodes : forall t, In (root t) (nodes t).
Proof. destruct t; left; reflexivity. Qed.

Lemma kid_in_nodes : forall t k, In k (kids t) -> forall j, In j (nodes k) -> In j (nodes t).
Proof.
  destruct t as [i ats ks]; simpl; intros k I j J. right. apply in_or_app. right.
  apply in_flat_map. eauto.
Qed.

Lemma attr_in_nodes : forall t k, In k (atts t) -> forall j, In j (nodes k) -> In j (nodes t).
Proof.
  destruct t as [i ats ks]; simpl; intros k I j J. right. apply in_or_app. left.
  apply in_flat_map. eauto.
Qed.

(** The fields a tree looks at. *)
Definition link_eq (n n' : node) : Prop :=
  sib_eq n n' /\ n_first n' = n_first n /\ n_last n' = n_last n /\ n_attrs n' = n_attrs n.
Definition down_eq (n n' : node) : Prop :=
  n_first n' = n_first n /\ n_last n' = n_last n /\ n_attrs n' = n_attrs n.


Lemma repr_frame_in : forall h h' t, repr h t ->
  (forall j n, In j (nodes t) -> h j = Some n -> exists n', h' j = Some n' /\ link_eq n n') ->
  repr h' t.
Proof.
  intros h h' t. induction t using rose_ind2. intros R F. inversion R; subst.
  destruct (F i n) as (n' & A & (S & B1 & B2 & B3)); [left; auto|auto|].
  assert (K : forall k, In k (ats ++ ks) -> forall j m, In j (nodes k) -> h j = Some m ->
              exists m', h' j = Some m' /\ link_eq m m').
  { intros k I j m J Hj. apply F; auto. simpl. right. apply in_app_or in I. apply in_or_app.
    destruct I; [left|right]; apply in_flat_map; eauto. }
  apply repr_T with (n := n'); try congruence.
  - eapply seg_ext; [|eassumption]. intros c m I Hc. apply in_map_iff in I. destruct I as (k & <- & I).
    destruct (K k (in_or_app _ _ _ (or_intror I)) (root k) m (root_in_nodes k) Hc) as (m' & A' & (Q & _)).
    eauto.
  - rewrite Forall_forall in *. intros k I. destruct (H10 k I) as (m & A1 & A2 & A3).
    destruct (K k (in_or_app _ _ _ (or_introl I)) (root k) m (root_in_nodes k) A1) as (m' & A' & (Q & _)).
    destruct Q as (Q1 & Q2 & _). exists m'. rewrite Q1, Q2. auto.
  - rewrite Forall_forall in *. intros k I. apply H; auto. apply K. apply in_or_app; auto.
  - rewrite Forall_forall in *. intros k I. apply H0; auto. apply K. apply in_or_app; auto.
Qed.

(** The root may be relinked. *)
Lemma repr_frame : forall h h' t, repr h t ->
  (forall n, h (root t) = Some n -> exists n', h' (root t) = Some n' /\ down_eq n n') ->
  (forall k, In k (atts t ++ kids t) -> forall j n, In j (nodes k) -> h j = Some n ->
     exists n', h' j = Some n' /\ link_eq n n') ->
  repr h' t.
Proof.
  intros h h' [i ats ks] R F K. simpl in *. inversion R; subst.
  destruct (F n) as (n' & A & (B1 & B2 & B3)); [auto|].
  apply repr_T with (n := n'); try congruence.
  - eapply seg_ext; [|eassumption]. intros c m I Hc. apply in_map_iff in I. destruct I as (k & <- & I).
    destruct (K k (in_or_app _ _ _ (or_intror I)) (root k) m (root_in_nodes k) Hc) as (m' & A' & (Q & _)).
    eauto.
  - rewrite Forall_forall in *. intros k I. destruct (H8 k I) as (m & A1 & A2 & A3).
    destruct (K k (in_or_app _ _ _ (or_introl I)) (root k) m (root_in_nodes k) A1) as (m' & A' & (Q & _)).
    destruct Q as (Q1 & Q2 & _). exists m'. rewrite Q1, Q2. auto.
  - rewrite Forall_forall in *. intros k I. eapply repr_frame_in; eauto. apply K. apply in_or_app; auto.
  - rewrite Forall_forall in *. intros k I. eapply repr_frame_in; eauto. apply K. apply in_or_app; auto.
Qed.

Lemma achain_length : forall h i d, depth h i d -> forall l, achain h (Some i) l -> length l = S d.
Proof.
  induction 1; intros l A; destruct (achain_some _ _ _ A) as (m & l' & -> & Hm & A');
    assert (m = n) by congruence; subst; rewrite H0 in A'.
  - apply achain_none in A'. subst; auto.
  - simpl. f_equal. auto.
Qed.

(** Every live node of a well-formed heap is the root of a tree. *)
Lemma tree_exists_gen : forall h ch nx, wfL h nx -> wfT h ch ->
  forall k i d, depth h i d -> nx - d <= k -> d < nx -> exists t, repr h t /\ root t = i.
Proof.
  intros h ch nx L W. induction k; intros i d D K B. { lia. }
  assert (Hi : exists n, h i = Some n) by (inversion D; eauto). destruct Hi as [n Hn].
  assert (DB : forall j m, h j = Some m -> n_parent m = Some i -> exists t, repr h t /\ root t = j).
  { intros j m Hj Pj. assert (Dj : depth h j (S d)) by (econstructor; eauto).
    destruct (Nat.lt_ge_cases (S d) nx).
    - eapply IHk; eauto. lia.
    - exfalso. assert (Rj : rooted h j) by (apply (wt_rooted _ _ W); exists m; auto).
      destruct (rooted_achain _ _ Rj) as [l A].
      pose proof (achain_bound _ _ _ _ L Rj A).
      pose proof (achain_length _ _ _ Dj _ A). lia. }
  assert (EX : forall l, (forall j, In j l -> exists m, h j = Some m /\ n_parent m = Some i) ->
     exists ts, map root ts = l /\ Forall (repr h) ts).
  { induction l as [|j l]; intros H. { exists []; split; auto. }
    destruct IHl as (ts & E & F). { intros; apply H; right; auto. }
    destruct (H j) as (m & A & Pm); [left; auto|]. destruct (DB _ _ A Pm) as (t & R & Q).
    exists (t :: ts). split; [simpl; congruence|constructor; auto]. }
  destruct (EX (ch i)) as (ks & Eks & Fks).
  { intros j I. destruct (wt_child _ _ W _ _ I) as (m & _ & A & _ & _ & B' & _). eauto. }
  destruct (wt_attrs _ _ W _ _ Hn) as (_ & _ & AT).
  destruct (EX (n_attrs n)) as (ats & Eats & Fats).
  { intros j I. destruct (AT _ I) as (m & A & _ & B'). eauto. }
  destruct (wt_ends _ _ W _ _ Hn) as [E1 E2].
  exists (T i ats ks). split; auto. apply repr_T with (n := n); try congruence.
  - rewrite Eks. apply (wt_seg _ _ W).
  - rewrite Eks. apply (wt_nodup _ _ W).
  - rewrite Forall_forall. intros t I. destruct (AT (root t)) as (m & A & B1 & B2).
    { rewrite <- Eats. apply in_map; auto. }
    exists m; auto.
Qed.

Lemma depth_bound : forall h ch nx, wfL h nx -> wfT h ch -> forall i d, depth h i d -> d < nx.
Proof.
  intros h ch nx L W i d D.
  assert (Hi : exists n, h i = Some n) by (inversion D; eauto). destruct Hi as [n Hn].
  assert (Ri : rooted h i) by (apply (wt_rooted _ _ W); exists n; auto).
  destruct (rooted_achain _ _ Ri) as [l A]. pose proof (achain_bound _ _ _ _ L Ri A).
  pose proof (achain_length _ _ _ D _ A). lia.
Qed.

Lemma tree_exists : forall h ch nx, wfL h nx -> wfT h ch -> forall i, live h i -> exists t, repr h t /\ root t = i.
Proof.
  intros h ch nx L W i Li. destruct (rooted_depth _ _ (wt_rooted _ _ W _ Li)) as [d D].
  eapply tree_exists_gen; eauto. eapply depth_bound; eauto.
Qed.

(** Nodes of a tree: descendants of its root. *)
Lemma repr_live : forall h t, repr h t -> forall j, In j (nodes t) -> live h j.
Proof.
  intros h t. induction t using rose_ind2. intros R j I. inversion R; subst. simpl in I.
  destruct I as [->|I]; [eexists; eauto|]. rewrite Forall_forall in *.
  apply in_app_or in I. destruct I as [I|I]; apply in_flat_map in I; destruct I as (k & A & B); eauto.
Qed.

Lemma repr_anc : forall h t, repr h t -> forall j, In j (nodes t) -> anc h (root t) j.
Proof.
  intros h t. induction t using rose_ind2. intros R j I. inversion R; subst. simpl in *.
  destruct I as [->|I]; [constructor|]. rewrite Forall_forall in *.
  apply in_app_or in I. destruct I as [I|I]; apply in_flat_map in I; destruct I as (k & A & B).
  - eapply anc_trans; [|apply H; eauto]. destruct (H10 _ A) as (m & C1 & C2 & C3).
    econstructor; eauto. constructor.
  - eapply anc_trans; [|apply H0; eauto].
    destruct (seg_in _ _ _ _ _ (root k) H8) as (m & C1 & C2 & C3). { apply in_map; auto. }
    econstructor; eauto. constructor.
Qed.

Lemma repr_nodes_closed : forall h ch, wfT h ch -> forall t, repr h t -> forall i n p,
  h i = Some n -> n_parent n = Some p -> In p (nodes t) -> In i (nodes t).
Proof.
  intros h ch W t. induction t using rose_ind2. intros R j m p Hj Pj I. inversion R; subst. simpl in *.
  rewrite Forall_forall in *. destruct I as [->|I].
  - destruct (wt_parent _ _ W _ _ _ Hj Pj) as (np & A & B & C). assert (np = n) by congruence; subst.
    destruct (wt_ends _ _ W _ _ A) as [E1 E2].
    assert (CH : ch p = map root ks).
    { eapply fwd_det. { eapply seg_fwd. apply (wt_seg _ _ W). } rewrite <- E1, H5. eapply seg_fwd; eauto. }
    right. apply in_or_app. destruct (ntype_eqb (n_type m) ATTRIBUTE) eqn:TT.
    + apply ntype_eqb_eq in TT. specialize (C TT). rewrite H7 in C. apply in_map_iff in C.
      destruct C as (k & <- & C). left. apply in_flat_map. exists k; split; auto. apply root_in_nodes.
    + apply ntype_eqb_neq in TT. destruct (B TT) as [B' _]. rewrite CH in B'. apply in_map_iff in B'.
      destruct B' as (k & <- & C'). right. apply in_flat_map. exists k; split; auto. apply root_in_nodes.
  - right. apply in_app_or in I. apply in_or_app.
    destruct I as [I|I]; apply in_flat_map in I; destruct I as (k & A & B); [left|right]; apply in_flat_map; eauto.
Qed.

Lemma repr_nodes : forall h ch, wfT h ch -> forall t, repr h t -> forall j,
  In j (nodes t) <-> anc h (root t) j.
Proof.
  intros h ch W t R j. split. { apply repr_anc; auto. }
  intros A. induction A. { apply root_in_nodes. }
  eapply repr_nodes_closed; eauto.
Qed.

Lemma anc_same_depth : forall h x y j d, anc h x j -> anc h y j -> depth h x d -> depth h y d -> x = y.
Proof.
  intros h x y j d A. revert y. induction A; intros y B Dx Dy.
  - inversion B; subst; auto. exfalso.
    inversion Dx; subst; [congruence|]. assert (p0 = p) by congruence; subst.
    destruct (anc_depth _ _ _ H1 _ H4) as (d' & E & F). pose proof (depth_det _ _ _ E _ Dy). lia.
  - inversion B; subst.
    + exfalso. inversion Dy; subst; [congruence|]. assert (p0 = p) by congruence; subst.
      destruct (anc_depth _ _ _ A _ H3) as (d' & E & F). pose proof (depth_det _ _ _ E _ Dx). lia.
    + assert (n0 = n) by congruence; subst. assert (p0 = p) by congruence; subst. apply IHA; auto.
Qed.

(** Trees of distinct siblings are disjoint; a tree has no repeated node. *)
Lemma siblings_disjoint : forall h ch, wfT h ch -> forall p x y nx ny, 
  h x = Some nx -> h y = Some ny -> n_parent nx = Some p -> n_parent ny = Some p -> x <> y ->
  forall j, anc h x j -> ~ anc h y j.
Proof.
  intros h ch W p x y nx ny Hx Hy Px Py NE j A B. apply NE.
  assert (Lp : live h p). { destruct (wt_parent _ _ W _ _ _ Hx Px) as (np & ? & _). exists np; auto. }
  destruct (rooted_depth _ _ (wt_rooted _ _ W _ Lp)) as [d D].
  apply (anc_same_depth h x y j (S d)); auto; econstructor; eauto.
Qed.

Lemma NoDup_flat_map : forall A B (f : A -> list B) l,
  NoDup l -> (forall x, In x l -> NoDup (f x)) ->
  (forall x y, In x l -> In y l -> x <> y -> forall z, In z (f x) -> ~ In z (f y)) ->
  NoDup (flat_map f l).
Proof.
  induction l; simpl; intros ND H D. { constructor. }
  inversion ND; subst. apply NoDup_app; [auto|apply IHl; auto; intros x y Ix Iy; apply D; auto|].
  intros z I J. apply in_flat_map in J. destruct J as (y & Iy & Jy).
  apply (D a y) with (z := z); auto. intros ->; auto.
Qed.

Lemma map_root_inj : forall ts, NoDup (map root ts) -> NoDup ts /\ (forall x y, In x ts -> In y ts -> x <> y -> root x <> root y).
Proof.
  induction ts; simpl; intros ND. { split; [constructor|]. intros ? ? []. }
  inversion ND; subst. destruct (IHts H2) as [N D]. split.
  - constructor; auto. intros I. apply H1. apply in_map; auto.
  - intros x y [->|Ix] [->|Iy] NE E; try congruence.
    + apply H1. rewrite E. apply in_map; auto.
    + apply H1. rewrite <- E. apply in_map; auto.
    + exact (D _ _ Ix Iy NE E).
Qed.

Lemma repr_nodup : forall h ch, wfT h ch -> forall t, repr h t -> NoDup (nodes t).
Proof.
  intros h ch W t. induction t using rose_ind2. intros R. inversion R; subst. simpl.
  rewrite Forall_forall in *.
  assert (PAR : forall k, In k (ats ++ ks) -> exists m, h (root k) = Some m /\ n_parent m = Some i /\ repr h k).
  { intros k I. apply in_app_or in I. destruct I as [I|I].
    - destruct (H10 _ I) as (m & A & B & C). exists m; auto.
    - destruct (seg_in _ _ _ _ _ (root k) H8) as (m & C1 & C2 & C3). { apply in_map; auto. } exists m; auto. }
  assert (NA : NoDup (map root ats)). { rewrite <- H7. apply (wt_attrs _ _ W _ _ H4). }
  destruct (map_root_inj _ NA) as [NA1 NA2]. destruct (map_root_inj _ H9) as [NK1 NK2].
  assert (DJ : forall x y, In x (ats ++ ks) -> In y (ats ++ ks) -> root x <> root y ->
     forall z, In z (nodes x) -> ~ In z (nodes y)).
  { intros x y Ix Iy NE z Jx Jy.
    destruct (PAR x Ix) as (mx & A1 & A2 & A3). destruct (PAR y Iy) as (my & B1 & B2 & B3).
    apply (siblings_disjoint h ch W i (root x) (root y) mx my A1 B1 A2 B2 NE z); apply repr_anc; auto. }
  constructor.
  - intros I. apply in_app_or in I.
    assert (IK : exists k, In k (ats ++ ks) /\ In i (nodes k)).
    { destruct I as [I|I]; apply in_flat_map in I; destruct I as (k & A & B); exists k; split; auto;
        apply in_or_app; auto. }
    destruct IK as (k & A & B). destruct (PAR _ A) as (m & C1 & C2 & C3).
    assert (AN : anc h (root k) i) by (apply repr_anc; auto).
    refine (anc_proper_neq h (root k) m i (root k) _ C1 C2 AN eq_refl).
    apply (wt_rooted _ _ W). exists m; auto.
  - apply NoDup_app.
    + apply NoDup_flat_map; auto. intros x y Ix Iy NE. apply DJ; auto; apply in_or_app; auto.
    + apply NoDup_flat_map; auto. intros x y Ix Iy NE. apply DJ; auto; apply in_or_app; auto.
    + intros z I J. apply in_flat_map in I. apply in_flat_map in J.
      destruct I as (x & Ix & Jx). destruct J as (y & Iy & Jy).
      apply (DJ x y) with (z := z); auto; try (apply in_or_app; auto).
      intros E. destruct (H10 _ Ix) as (m & C1 & C2 & C3).
      destruct (seg_in _ _ _ _ _ (root y) H8) as (m' & D1 & D2 & D3). { apply in_map; auto. }
      rewrite E in C1. congruence.
Qed.

Lemma pre_incl : forall t j, In j (pre t) -> In j (nodes t).
Proof.
  intros t. induction t using rose_ind2. intros j I. simpl in *. destruct I as [->|I]; auto.
  right. apply in_or_app. right. rewrite Forall_forall in *. apply in_flat_map in I.
  destruct I as (k & A & B). apply in_flat_map. eauto.
Qed.

Lemma pre_length : forall t, length (pre t) <= length (nodes t).
Proof.
  intros t. induction t using rose_ind2. simpl. rewrite app_length. 
  assert (length (flat_map pre ks) <= length (flat_map nodes ks)); [|lia].
  clear - H0. induction H0; simpl; auto. rewrite !app_length. lia.
Qed.

Lemma repr_size : forall h ch nx, wfL h nx -> wfT h ch -> forall t, repr h t -> length (nodes t) <= nx.
Proof.
  intros h ch nx L W t R. rewrite <- (seq_length nx 0). apply NoDup_incl_length.
  - eapply repr_nodup; eauto.
  - intros j I. destruct (repr_live _ _ R _ I) as [n Hn]. apply in_seq. specialize (L _ _ Hn). lia.
Qed.

(** ** The walk *)

Definition last_of (h : heap) (i : id) : option id := match h i with Some n => n_last n | None => None end.
Definition next_of (h : heap) (i : id) : option id := match h i with Some n => n_next n | None => None end.

(** Where the climbing loop stops, along the list of ancestors. *)
Fixpoint climbL (h : heap) (top cur : id) (l : list id) : id :=
  match l with
  | [] => cur
  | p :: r => if Nat.eqb p top then cur
              else if oid_eqb (last_of h p) (Some cur) then climbL h top p r else cur
  end.

Lemma climb_ok : forall l top cur parent s f, achain (s_heap s) parent l -> In top l -> length l < f ->
  climb f top cur parent s = Ok (climbL (s_heap s) top cur l) s.
Proof.
  induction l as [|p l]; intros top cur parent s f A I F. { destruct I. }
  inversion A; subst. destruct f; [simpl in F; lia|]. cbn [climb climbL].
  rewrite oid_eqb_some. destruct (Nat.eqb_spec p top); [reflexivity|].
  rewrite (bind_ok _ _ _ _ _ _ _ _ (deref_ok p s)). rewrite (bind_ok _ _ _ _ _ _ _ _ (load_ok _ _ _ H2)).
  unfold last_of. rewrite H2. destruct (oid_eqb (n_last n) (Some cur)); [|reflexivity].
  apply IHl; auto; [|simpl in F; lia]. destruct I; [congruence|auto].
Qed.

Section Walk.
  Variable ev : id -> event.
  Variable top : id.

  Definition walk_tree (t : rose) : Prop := forall s l f,
    repr (s_heap s) t -> achain (s_heap s) (Some (root t)) (root t :: l) -> In top l ->
    ~ In top (nodes t) ->
    length l + length (nodes t) < fuel_of s ->
    (next_of (s_heap s) (root t) <> None -> climbL (s_heap s) top (root t) l = root t) ->
    change_walk (length (pre t) + f) ev top (Some (root t)) s =
    change_walk f ev top (next_of (s_heap s) (climbL (s_heap s) top (root t) l)) (addlog s (map ev (pre t))).

  Lemma walk_forest : forall ks, Forall walk_tree ks -> forall s p l pv f,
    Forall (repr (s_heap s)) ks -> achain (s_heap s) (Some p) (p :: l) -> In top (p :: l) ->
    (forall k, In k ks -> ~ In top (nodes k)) ->
    length l + 1 + length (flat_map nodes ks) < fuel_of s ->
    seg (s_heap s) p pv (map root ks) None -> NoDup (map root ks) ->
    last_of (s_heap s) p = last_error (map root ks) ->
    forall x, last_error (map root ks) = Some x ->
    change_walk (length (flat_map pre ks) + f) ev top (hd_error (map root ks)) s =
    change_walk f ev top (next_of (s_heap s) (climbL (s_heap s) top x (p :: l)))
       (addlog s (map ev (flat_map pre ks))).
  Proof.
    induction ks as [|k ks]; intros FW s p l pv f FR A IT NT LF SG ND LS x LX. { discriminate. }
    inversion FW; subst. inversion FR; subst. cbn [map] in SG. destruct SG as [(n & N1 & N2 & N3 & N4 & N5) SG].
    cbn [flat_map] in *. rewrite app_length in *. cbn [map] in ND. inversion ND; subst.
    assert (AC : achain (s_heap s) (Some (root k)) (root k :: p :: l)).
    { econstructor; eauto. rewrite N3. auto. }
    assert (NXT : next_of (s_heap s) (root k) = hd_error (map root ks)).
    { unfold next_of. rewrite N1, N5. destruct (map root ks); auto. }
    assert (ST : map root ks <> [] -> climbL (s_heap s) top (root k) (p :: l) = root k).
    { intros NE. cbn [climbL]. destruct (Nat.eqb p top); auto.
      destruct (oid_eqb (last_of (s_heap s) p) (Some (root k))) eqn:E; auto.
      apply oid_eqb_eq in E. rewrite LS in E. cbn [map] in E. rewrite last_error_cons in E.
      destruct (last_error (map root ks)) eqn:LL.
      - inversion E; subst. exfalso. apply H5. apply last_error_in; auto.
      - apply last_error_none in LL. congruence. }
    cbn [map hd_error]. rewrite <- Nat.add_assoc.
    rewrite (H1 s (p :: l)); auto.
    2:{ apply NT; left; auto. }
    2:{ cbn [length]. lia. }
    2:{ intros NN. apply ST. intros E. rewrite NXT, E in NN. auto. }
    destruct ks as [|k' ks].
    - cbn [map] in LX. rewrite last_error_cons in LX. inversion LX; subst. simpl. rewrite app_nil_r. reflexivity.
    - rewrite ST by discriminate. rewrite NXT.
      rewrite map_app. rewrite <- addlog_addlog.
      rewrite (IHks H2 (addlog s (map ev (pre k))) p l (Some (root k)) f) with (x := x); auto.
      + intros k0 I0. apply NT; right; auto.
      + unfold fuel_of in *. rewrite addlog_nxt. lia.
      + rewrite addlog_heap. rewrite LS. cbn [map]. rewrite last_error_cons.
        destruct (last_error (root k' :: map root ks)) eqn:LL; auto. apply last_error_none in LL. discriminate.
      + cbn [map] in *. rewrite last_error_cons in LX.
        destruct (last_error (root k' :: map root ks)) eqn:LL; auto. apply last_error_none in LL. discriminate.
  Qed.

  Lemma walk_tree_all : forall t, walk_tree t.
  Proof.
    intros t. induction t using rose_ind2. intros s l f R A IT NT LF ST.
    inversion R; subst. cbn [root pre length] in *. simpl plus. cbn [change_walk].
    assert (FI : forall e, fire e s = Ok tt (addlog s [e])) by reflexivity.
    rewrite (bind_ok _ _ _ _ _ _ _ _ (FI (ev i))).
    rewrite (bind_ok _ _ _ _ _ (addlog s [ev i]) n (addlog s [ev i])) by (apply load_ok; auto).
    destruct (achain_some _ _ _ A) as (m & l' & E & Hm & A'). inversion E; subst l'. assert (m = n) by congruence. subst m.
    destruct ks as [|k ks].
    - cbn [map hd_error] in H5. rewrite H5. simpl flat_map. cbn [length plus map].
      assert (NX : next_of (s_heap s) i = n_next n) by (unfold next_of; rewrite H4; auto).
      destruct (n_next n) as [x|] eqn:NN.
      + rewrite ST by congruence. rewrite NX. reflexivity.
      + assert (CL : with_fuel (fun g => climb g top i (n_parent n)) (addlog s [ev i]) =
               Ok (climbL (s_heap s) top i l) (addlog s [ev i])).
        { unfold with_fuel. rewrite climb_ok with (l := l); auto. unfold fuel_of in *. rewrite addlog_nxt. simpl in LF. lia. }
        rewrite (bind_ok _ _ _ _ _ _ _ _ CL).
        assert (LV : exists nj, s_heap s (climbL (s_heap s) top i l) = Some nj).
        { clear - A H4. remember (Some i) as o. remember (i :: l) as il. revert i l n H4 Heqo Heqil.
          induction A; intros i0 l0 n0 H4 Heqo Heqil; inversion Heqo; inversion Heqil; subst.
          destruct l0 as [|p r]; [exists n0; auto|]. cbn [climbL].
          destruct (Nat.eqb p top); [exists n0; auto|].
          destruct (oid_eqb (last_of (s_heap s) p) (Some i0)); [|exists n0; auto].
          inversion A; subst. eapply IHA; eauto. }
        destruct LV as [nj Hj].
        rewrite (bind_ok _ _ _ _ _ (addlog s [ev i]) nj (addlog s [ev i])) by (apply load_ok; auto).
        unfold next_of. rewrite Hj. reflexivity.
    - cbn [map hd_error] in H5. rewrite H5.
      change (Some (root k)) with (hd_error (map root (k :: ks))).
      assert (NTi : i <> top) by (intros ->; apply NT; left; auto).
      assert (LL : exists x, last_error (map root (k :: ks)) = Some x).
      { destruct (last_error (map root (k :: ks))) eqn:Q; eauto. apply last_error_none in Q. discriminate. }
      destruct LL as [x LL].
      rewrite (walk_forest (k :: ks) H0 (addlog s [ev i]) i l None f) with (x := x); auto.
      + rewrite addlog_heap. cbn [climbL]. apply Nat.eqb_neq in NTi. rewrite NTi.
        unfold last_of at 1. rewrite H4, H6, LL, oid_eqb_refl. rewrite addlog_addlog. reflexivity.
      + right; auto.
      + intros k0 I0 J0. apply NT. cbn [nodes]. right. apply in_or_app. right. apply in_flat_map. eauto.
      + unfold fuel_of in *. rewrite addlog_nxt. cbn [nodes length] in LF. rewrite app_length in LF. lia.
      + rewrite addlog_heap. unfold last_of. rewrite H4. auto.
  Qed.
End Walk.

Definition desc (t : rose) : list id := flat_map pre (kids t).

(** Fired events: at each proper descendant of the root, in document order. *)
Lemma change_walk_ok : forall ev s t l nx f, repr (s_heap s) t ->
  achain (s_heap s) (Some (root t)) (root t :: l) ->
  NoDup (nodes t) -> length l + length (nodes t) < fuel_of s ->
  (forall n, s_heap s (root t) = Some n -> nx = n_first n) ->
  change_walk (length (desc t) + f) ev (root t) nx s = Ok tt (addlog s (map ev (desc t))).
Proof.
  intros ev s [i ats ks] l nx f R A ND LF NX. destruct (repr_inv _ _ _ _ R) as (n & H1 & H2 & H3 & H4 & H5 & H6 & H7 & H8 & H9). unfold desc. cbn [root kids] in *.
  rewrite (NX _ H1). rewrite H2.
  destruct (last_error (map root ks)) as [x|] eqn:LX.
  - rewrite (walk_forest ev i ks) with (p := i) (l := l) (pv := None) (x := x); auto.
    + cbn [climbL]. rewrite Nat.eqb_refl.
      assert (NN : next_of (s_heap s) x = None).
      { destruct (last_error_split _ _ _ LX) as [l' E]. rewrite E in H5. apply seg_app in H5.
        destruct H5 as [_ [(m & B1 & B2 & B3 & B4 & B5) _]]. unfold next_of. rewrite B1, B5. auto. }
      rewrite NN. destruct f; reflexivity.
    + rewrite Forall_forall. intros. apply walk_tree_all.
    + left; auto.
    + intros k I J. cbn [nodes] in ND. inversion ND as [|? ? NI ND']; subst. apply NI. apply in_or_app. right. apply in_flat_map; eauto.
    + cbn [nodes length] in LF. rewrite app_length in LF. lia.
    + unfold last_of. rewrite H1. congruence.
  - apply last_error_none in LX. apply map_eq_nil in LX. subst. simpl. rewrite addlog_nil. destruct f; reflexivity.
Qed.
