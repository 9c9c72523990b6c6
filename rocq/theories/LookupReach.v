(** The namespace lookups in every history. *)
From Coq Require Import List Arith NArith Bool Lia.
From Verif Require Import Base HeapModel HeapSpec HeapInv HeapExec StringModel NameModel HistModel HistProofs WalkModel WalkSpec WalkProofs WalkReach WalkLists WalkFinds LookupModel LookupSpec LookupProofs.
Import ListNotations.

Lemma deep : forall s i, linked s -> live (s_heap s) i -> exists d, depth (s_heap s) i d /\ d < fuel_of s.
Proof.
  intros s i L Li. destruct (rooted_depth _ _ (linked_rooted _ L _ Li)) as (d & D). exists d. split; auto.
  pose proof (linked_depth_bound _ L _ _ D). unfold fuel_of. lia.
Qed.
Lemma dn_live : forall h i r, default_ns h i r -> live h i.
Proof. intros h i r D. destruct D; eexists; eauto. Qed.
Lemma sf_live : forall h p i r, stands_for h p i r -> live h i.
Proof. intros h p i r D. destruct D; eexists; eauto. Qed.

Lemma reach_default : forall k s g, reach k s g -> short k -> forall i r, default_ns (s_heap s) i r ->
  forall ns, exists b s', is_default_namespace i ns s = Ok b s' /\ (b = true <-> exists d, r = Some d /\ no_null d = no_null ns) /\
    but_counts s s' /\ (off_attributes (s_heap s) i -> s' = s).
Proof.
  intros k s g R SH i r D ns. pose proof (reach_linked _ _ _ R SH) as L. destruct (deep s i L (dn_live _ _ _ D)) as (d & DD & LT).
  destruct (default_run (fuel_of s) s i d r L DD LT D ns) as (s' & A & B & C). exists (answers r ns), s'. split; [exact A|]. split; [|split; auto].
  unfold answers. destruct r as [x|]; [rewrite isequal_iff|].
  - split; [intros E; exists x; auto|intros (y & E & F); congruence].
  - split; [discriminate|intros (y & E & _); discriminate].
Qed.
Lemma reach_default_ex : forall k s g, reach k s g -> short k -> plain_attributes (s_heap s) -> forall i, live (s_heap s) i ->
  exists r, default_ns (s_heap s) i r.
Proof.
  intros k s g R SH P i Li. pose proof (reach_linked _ _ _ R SH) as L. destruct (deep s i L Li) as (d & DD & _). apply (default_ex s L P d); auto.
Qed.
Lemma reach_null : forall k s g, reach k s g -> short k -> forall i r, stands_for (s_heap s) None i r ->
  exists s', lookup_namespace i None s = Ok r s' /\ but_counts s s' /\ (off_attributes (s_heap s) i -> s' = s).
Proof.
  intros k s g R SH i r D. pose proof (reach_linked _ _ _ R SH) as L. destruct (deep s i L (sf_live _ _ _ _ D)) as (d & DD & LT).
  apply (null_run (fuel_of s) s i d r L DD LT D).
Qed.
Lemma reach_nothing : forall k s g, reach k s g -> short k -> forall i p r, nothing_declared (s_heap s) i -> stands_for (s_heap s) p i r ->
  exists s', lookup_namespace i p s = Ok r s' /\ but_counts s s' /\ (off_attributes (s_heap s) i -> s' = s).
Proof.
  intros k s g R SH i p r N D. pose proof (reach_linked _ _ _ R SH) as L. destruct (deep s i L (sf_live _ _ _ _ D)) as (d & DD & LT).
  apply (nothing_run (fuel_of s) s i d p r L DD LT N D).
Qed.

Lemma none_opt : forall s i n p, linked s -> s_heap s i = Some n -> none_in_xmlns (s_heap s) n -> find_attr_ns_opt s_xmlns p (n_attrs n) s = Ok None s.
Proof.
  intros s i n p L H N. apply find_opt_none. intros a I. destruct (attrs_live _ _ _ L H a I) as (na & A & _). exists na. split; auto. apply (N a); auto.
Qed.
Lemma fuel_S : forall s, exists f, fuel_of s = S f.
Proof. intros s. exists (2 * s_nxt s + 7). unfold fuel_of. lia. Qed.
Lemma reach_missed : forall k s g, reach k s g -> short k -> forall e n x v, s_heap s e = Some n -> n_type n = ELEMENT -> n_parent n = None ->
  ~ bears n (Some x) -> declares (s_heap s) e (Some x) v -> (forall a, ~ first_named (s_heap s) s_xmlns (n_attrs n) a) -> none_in_xmlns (s_heap s) n ->
  stands_for (s_heap s) (Some x) e (Some v) /\ lookup_namespace e (Some x) s = Ok None s.
Proof.
  intros k s g R SH e n x v H T P B D F N. pose proof (reach_linked _ _ _ R SH) as L. split; [apply (sf_says _ _ _ n); auto|].
  unfold lookup_namespace, with_fuel. destruct (fuel_S s) as (f & ->). rewrite (namespace_element _ _ _ _ _ H T B (none_opt _ _ _ _ L H N)).
  rewrite (bind_ok _ _ _ _ _ _ _ _ (xmlns_unsaid _ _ _ L H F)). rewrite P. reflexivity.
Qed.
Lemma reach_taken : forall k s g, reach k s g -> short k -> forall e n x v, s_heap s e = Some n -> n_type n = ELEMENT ->
  ~ bears n (Some x) -> has_attr (s_heap s) e s_xmlns v -> none_in_xmlns (s_heap s) n -> lookup_namespace e (Some x) s = Ok (Some v) s.
Proof.
  intros k s g R SH e n x v H T B D N. pose proof (reach_linked _ _ _ R SH) as L.
  unfold lookup_namespace, with_fuel. destruct (fuel_S s) as (f & ->). rewrite (namespace_element _ _ _ _ _ H T B (none_opt _ _ _ _ L H N)).
  destruct (xmlns_said _ _ _ _ L H D) as (a & F & V). rewrite (bind_ok _ _ _ _ _ _ _ _ F). rewrite (bind_ok _ _ _ _ _ _ _ _ V). reflexivity.
Qed.
Lemma reach_document : forall k s g, reach k s g -> short k -> forall d n, s_heap s d = Some n -> n_type n = DOCUMENT -> n_parent n = None ->
  forall x, is_default_namespace d x s = Ok false s /\ lookup_namespace d x s = Ok None s /\ lookup_prefix d x s = Ok None s.
Proof.
  intros k s g R SH d n H T P x. unfold is_default_namespace, lookup_namespace, lookup_prefix, with_fuel. destruct (fuel_S s) as (f & ->).
  assert (NE : n_type n <> ELEMENT) by congruence.
  rewrite (default_other _ _ _ _ _ H NE), (namespace_other _ _ _ _ _ H NE), (prefix_other _ _ _ _ _ H NE). rewrite !upward_none by auto. auto.
Qed.
Lemma reach_prefix_bad : forall k s g, reach k s g -> short k -> forall i e, live (s_heap s) i -> anc (s_heap s) e i -> type_of (s_heap s) e = Some ELEMENT ->
  forall ns, lookup_prefix i ns s = Bad BadCast.
Proof.
  intros k s g R SH i e Li A T ns. pose proof (reach_linked _ _ _ R SH) as L. destruct (deep s i L Li) as (d & DD & LT).
  apply (prefix_bad (fuel_of s) s i d ns L DD LT). exists e. auto.
Qed.
Lemma reach_prefix_ok : forall k s g, reach k s g -> short k -> forall i, live (s_heap s) i -> (forall e, anc (s_heap s) e i -> type_of (s_heap s) e <> Some ELEMENT) ->
  forall ns, exists s', lookup_prefix i ns s = Ok None s' /\ but_counts s s' /\ (off_attributes (s_heap s) i -> s' = s).
Proof.
  intros k s g R SH i Li N ns. pose proof (reach_linked _ _ _ R SH) as L. destruct (deep s i L Li) as (d & DD & LT).
  apply (prefix_run (fuel_of s) s i d ns L DD LT N).
Qed.
(** Asked of an attribute of an element that is not below an attribute, the reference to the element stays. *)
Lemma off_same : forall h h', same h h' -> forall i, off_attributes h i -> off_attributes h' i.
Proof.
  intros h h' K i O a n A H. pose proof (same_sym _ _ K) as K'. destruct (same_get _ _ K' _ _ H) as (m & B & U). destruct (unref_parts _ _ U) as (E & _).
  rewrite <- E. apply (O a m); auto. apply (like_anc h'); auto. apply same_like; auto.
Qed.
Lemma reach_leak : forall k s g, reach k s g -> short k -> forall a na e ne r, s_heap s a = Some na -> n_type na = ATTRIBUTE -> n_parent na = Some e ->
  s_heap s e = Some ne -> off_attributes (s_heap s) e -> (n_ref ne + 1 < two32)%N -> default_ns (s_heap s) a r ->
  forall ns, exists b s' ne', is_default_namespace a ns s = Ok b s' /\ s_heap s' e = Some ne' /\ n_ref ne' = (n_ref ne + 1)%N.
Proof.
  intros k s g R SH a na e ne r HA TA PA HE O C D ns. pose proof (reach_linked _ _ _ R SH) as L.
  unfold is_default_namespace, with_fuel. destruct (deep s a L (dn_live _ _ _ D)) as (d & DD & LT). destruct (fuel_S s) as (f & FE). rewrite FE in *.
  assert (NE : n_type na <> ELEMENT) by congruence. rewrite (default_other _ _ _ _ _ HA NE). unfold upward. rewrite TA, PA.
  set (s1 := withh s (hmod (s_heap s) e (fun n => set_ref (u32 (n_ref n + 1)) n))).
  assert (R1 : node_ref e s = Ok tt s1) by (apply (upd_ok _ _ _ _ HE)).
  destruct (ref_but s e) as (s2 & R2 & B2). { exists ne. auto. } rewrite R1 in R2. injection R2 as <-.
  rewrite (bind_ok _ _ _ _ _ _ _ _ R1). inversion D as [? m A|? m v A|? m p r' A|? m A|? m p r' A T Q DN|? m A T Q]; subst; assert (m = na) by congruence; subst m; try congruence.
  assert (p = e) by congruence; subst p. destruct (depth_up _ _ _ _ _ DD HA PA) as (c & -> & DE).
  destruct (default_run f s1 e c r) with (ns := ns) as (s' & G1 & G2 & G3).
  - apply (but_linked s); auto.
  - apply (same_depth (s_heap s)); auto. exact (proj2 (proj2 B2)).
  - lia.
  - apply (same_default (s_heap s)); auto. exact (proj2 (proj2 B2)).
  - exists (answers r ns), s'. rewrite G3 by (apply (off_same (s_heap s)); auto; exact (proj2 (proj2 B2))).
    exists (set_ref (u32 (n_ref ne + 1)) ne). split; [rewrite <- (G3 (off_same _ _ (proj2 (proj2 B2)) _ O)) at 2; exact G1|]. split.
    + unfold s1. cbn [s_heap withh]. unfold hmod. rewrite Nat.eqb_refl, HE. reflexivity.
    + cbn [set_ref n_ref]. unfold u32. apply N.mod_small. exact C.
Qed.
