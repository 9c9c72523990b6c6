(** C61: the namespaces in scope. *)
From Coq Require Import List Arith NArith Bool.
From Verif Require Import Base HeapModel HeapSpec HistModel WalkSpec NameModel LookupModel LookupSpec LookupReach LookupWitness.
Import ListNotations.

(** isDefaultNamespace says whether the default namespace in scope is the one given; apart
    from attributes it changes nothing. *)
Theorem C61_default : forall k s g, reach k s g -> short k -> forall i r, default_ns (s_heap s) i r ->
  forall ns, exists b s', is_default_namespace i ns s = Ok b s' /\ (b = true <-> exists d, r = Some d /\ no_null d = no_null ns) /\
    but_counts s s' /\ (off_attributes (s_heap s) i -> s' = s).
Proof. exact reach_default. Qed.
Theorem C61_default_exists : forall k s g, reach k s g -> short k -> plain_attributes (s_heap s) -> forall i, live (s_heap s) i ->
  exists r, default_ns (s_heap s) i r.
Proof. exact reach_default_ex. Qed.
(** Asked of an attribute it leaves a reference to its element behind. *)
Theorem C61_leak_refuted : forall k s g, reach k s g -> short k -> forall a na e ne r, s_heap s a = Some na -> n_type na = ATTRIBUTE -> n_parent na = Some e ->
  s_heap s e = Some ne -> off_attributes (s_heap s) e -> (n_ref ne + 1 < two32)%N -> default_ns (s_heap s) a r ->
  forall ns, exists b s' ne', is_default_namespace a ns s = Ok b s' /\ s_heap s' e = Some ne' /\ n_ref ne' = (n_ref ne + 1)%N.
Proof. exact reach_leak. Qed.

(** lookupNamespaceURI without a prefix finds the namespace in scope, *)
Theorem C61_null_prefix : forall k s g, reach k s g -> short k -> forall i r, stands_for (s_heap s) None i r ->
  exists s', lookup_namespace i None s = Ok r s' /\ but_counts s s' /\ (off_attributes (s_heap s) i -> s' = s).
Proof. exact reach_null. Qed.
(** and so it does with one if no attribute declares anything. *)
Theorem C61_prefix_partial : forall k s g, reach k s g -> short k -> forall i p r, nothing_declared (s_heap s) i -> stands_for (s_heap s) p i r ->
  exists s', lookup_namespace i p s = Ok r s' /\ but_counts s s' /\ (off_attributes (s_heap s) i -> s' = s).
Proof. exact reach_nothing. Qed.
(** A prefix that an attribute declares is not found, *)
Theorem C61_declared_refuted : exists k s g i x r s', reach k s g /\ short k /\ stands_for (s_heap s) (Some x) i (Some r) /\ lookup_namespace i (Some x) s = Ok None s'.
Proof. exact missed_refuted. Qed.
Theorem C61_declared_missed : forall k s g, reach k s g -> short k -> forall e n x v, s_heap s e = Some n -> n_type n = ELEMENT -> n_parent n = None ->
  ~ bears n (Some x) -> declares (s_heap s) e (Some x) v -> (forall a, ~ first_named (s_heap s) s_xmlns (n_attrs n) a) -> none_in_xmlns (s_heap s) n ->
  stands_for (s_heap s) (Some x) e (Some v) /\ lookup_namespace e (Some x) s = Ok None s.
Proof. exact reach_missed. Qed.
(** and one that nothing declares is taken for the default. *)
Theorem C61_undeclared_refuted : exists k s g i x v s', reach k s g /\ short k /\ stands_for (s_heap s) (Some x) i None /\ lookup_namespace i (Some x) s = Ok (Some v) s'.
Proof. exact taken_refuted. Qed.
Theorem C61_default_taken : forall k s g, reach k s g -> short k -> forall e n x v, s_heap s e = Some n -> n_type n = ELEMENT ->
  ~ bears n (Some x) -> has_attr (s_heap s) e s_xmlns v -> none_in_xmlns (s_heap s) n -> lookup_namespace e (Some x) s = Ok (Some v) s.
Proof. exact reach_taken. Qed.
(** A document answers for itself, not for its element. *)
Theorem C61_document : forall k s g, reach k s g -> short k -> forall d n, s_heap s d = Some n -> n_type n = DOCUMENT -> n_parent n = None ->
  forall x, is_default_namespace d x s = Ok false s /\ lookup_namespace d x s = Ok None s /\ lookup_prefix d x s = Ok None s.
Proof. exact reach_document. Qed.

(** lookupPrefix has no defined behaviour on an element or below one; elsewhere it finds nothing. *)
Theorem C61_lookup_prefix_refuted : forall k s g, reach k s g -> short k -> forall i e, live (s_heap s) i -> anc (s_heap s) e i -> type_of (s_heap s) e = Some ELEMENT ->
  forall ns, lookup_prefix i ns s = Bad BadCast.
Proof. exact reach_prefix_bad. Qed.
Theorem C61_lookup_prefix_partial : forall k s g, reach k s g -> short k -> forall i, live (s_heap s) i -> (forall e, anc (s_heap s) e i -> type_of (s_heap s) e <> Some ELEMENT) ->
  forall ns, exists s', lookup_prefix i ns s = Ok None s' /\ but_counts s s' /\ (off_attributes (s_heap s) i -> s' = s).
Proof. exact reach_prefix_ok. Qed.

Example C61_page : reach 19 lands lands_client /\ short 19 /\ plain_attributes (s_heap lands).
Proof. exact (conj lands_reach (conj lands_short lands_plain)). Qed.
Example C61_default_case : default_ns (s_heap lands) 5 (Some (Some d_)) /\ stands_for (s_heap lands) None 5 (Some d_).
Proof. exact (conj default5 null5). Qed.
Example C61_leak_case : s_heap lands 3 = Some (nd 3) /\ n_type (nd 3) = ATTRIBUTE /\ n_parent (nd 3) = Some 1 /\ s_heap lands 1 = Some (nd 1) /\
  off_attributes (s_heap lands) 1 /\ (n_ref (nd 1%nat) + 1 < two32)%N /\ default_ns (s_heap lands) 3 (Some (Some d_)).
Proof. exact leak_case. Qed.
Example C61_prefix_case : nothing_declared (s_heap lands) 7 /\ stands_for (s_heap lands) (Some a_) 7 (Some u_).
Proof. exact (conj nothing7 stands7). Qed.
Example C61_missed_case : s_heap lands 8 = Some (nd 8) /\ n_type (nd 8) = ELEMENT /\ n_parent (nd 8) = None /\ ~ bears (nd 8) (Some p_) /\
  declares (s_heap lands) 8 (Some p_) q_ /\ (forall a, ~ first_named (s_heap lands) s_xmlns (n_attrs (nd 8)) a) /\ none_in_xmlns (s_heap lands) (nd 8).
Proof. exact missed_case. Qed.
Example C61_taken_case : s_heap lands 1 = Some (nd 1) /\ n_type (nd 1) = ELEMENT /\ ~ bears (nd 1) (Some p_) /\ has_attr (s_heap lands) 1 s_xmlns d_ /\
  none_in_xmlns (s_heap lands) (nd 1) /\ stands_for (s_heap lands) (Some p_) 1 None.
Proof. exact taken_case. Qed.
Example C61_document_case : s_heap lands 0 = Some (nd 0) /\ n_type (nd 0) = DOCUMENT /\ n_parent (nd 0) = None.
Proof. exact document_case. Qed.
Example C61_lookup_prefix_case : (live (s_heap lands) 5 /\ anc (s_heap lands) 2 5 /\ type_of (s_heap lands) 2 = Some ELEMENT) /\
  live (s_heap lands) 0 /\ forall e, anc (s_heap lands) e 0 -> type_of (s_heap lands) e <> Some ELEMENT.
Proof. exact (conj prefix_case prefix_ok_case). Qed.

Definition C61_theorems := (C61_default, C61_default_exists, C61_leak_refuted, C61_null_prefix, C61_prefix_partial, C61_declared_refuted, C61_declared_missed,
  C61_undeclared_refuted, C61_default_taken, C61_document, C61_lookup_prefix_refuted, C61_lookup_prefix_partial).
Print Assumptions C61_theorems.
