(** C09: attributes are not children. *)
From Coq Require Import List Arith NArith Bool.
From Verif Require Import Base HeapModel HeapSpec HistModel TreeSpec TreeWitness ChildAttrSpec ChildAttrProofs ChildAttrWitness.
Import ListNotations.

(** Whatever a careful client has done, no attribute is in a child list, and the
    attributes of an element are attribute nodes that name it as their parent. *)
Theorem C09_attributes_not_children_partial : forall k s g, reach k s g -> short k -> forall e a, attribute_of (s_heap s) e a ->
  type_of (s_heap s) e = Some ELEMENT /\ type_of (s_heap s) a = Some ATTRIBUTE /\ parent_of (s_heap s) a = Some e /\
  (forall p l, children (s_heap s) p l -> ~ In a l).
Proof. exact attribute_linked. Qed.
Example C09_attributes_not_children_case : reach 11 tagged_st tagged_client /\ attribute_of (s_heap tagged_st) 1 4 /\ children (s_heap tagged_st) 1 [2; 3].
Proof. exact (conj tagged_reach (conj tagged_attribute tagged_kids)). Qed.

(** No legal call on a child list changes the attributes of any node. *)
Theorem C09_edits_keep_attributes_partial : forall k s g, reach k s g -> short (S k) -> forall o r s', edits_children o -> legal s g o -> exec o s = Ok r s' ->
  forall j l, attributes (s_heap s) j l <-> attributes (s_heap s') j l.
Proof. exact edits_keep_attributes. Qed.
Example C09_edits_keep_attributes_case : exists r s', legal tagged_st tagged_client (ORemove 1 2) /\ exec (ORemove 1 2) tagged_st = Ok r s' /\
  attributes (s_heap s') 1 [4].
Proof. exact tagged_edit. Qed.

(** An attribute that is not one of [p]'s is not found in [p]. *)
Theorem C09_foreign_attribute_partial : forall k s g, reach k s g -> short (S k) -> forall p a, holds g p -> holds g a ->
  type_of (s_heap s) a = Some ATTRIBUTE -> parent_of (s_heap s) a <> Some p ->
  remove_child p a s = Exc NOT_FOUND_ERR s /\
  (forall c, holds g c -> owner_of (s_heap s) c = owner_of (s_heap s) p -> ~ read_only (s_heap s) p ->
     insert_before p c (Some a) s = Exc NOT_FOUND_ERR s /\
     (type_of (s_heap s) p <> Some DOCUMENT -> replace_child p c a s = Exc NOT_FOUND_ERR s)).
Proof. exact foreign_attribute. Qed.
Example C09_foreign_attribute_case : remove_child 1 6 tagged_st = Exc NOT_FOUND_ERR tagged_st /\ insert_before 1 5 (Some 6) tagged_st = Exc NOT_FOUND_ERR tagged_st /\
  replace_child 1 5 6 tagged_st = Exc NOT_FOUND_ERR tagged_st.
Proof. exact tagged_foreign. Qed.

(** Refuted, from every reachable state: give any writable element a fresh
    attribute and remove that attribute as a child.  The call succeeds, the element
    has no children any more, the nodes that were its children still name it as
    their parent, and the removed attribute is still listed among its attributes. *)
Theorem C09_remove_refuted : forall k s g, reach k s g -> short (S (S k)) -> forall e d name v, holds g e -> holds g d ->
  type_of (s_heap s) e = Some ELEMENT -> type_of (s_heap s) d = Some DOCUMENT -> owner_of (s_heap s) e = Some d -> ~ read_only (s_heap s) e ->
  unused_name (s_heap s) e name ->
  exists a s1 s2 s3 g2,
    exec (OCreate d ATTRIBUTE name v None None) s = Ok (OutNode (Some a)) s1 /\
    exec (OSetAttribute e a) s1 = Ok (OutNode None) s2 /\
    reach (S (S k)) s2 g2 /\ holds g2 e /\ holds g2 a /\ attribute_of (s_heap s2) e a /\
    (forall l, children (s_heap s) e l -> children (s_heap s2) e l) /\
    remove_child e a s2 = Ok a s3 /\
    children (s_heap s3) e [] /\
    (forall l x, children (s_heap s) e l -> In x l -> parent_of (s_heap s3) x = Some e) /\
    attribute_of (s_heap s3) e a /\ parent_of (s_heap s3) a = None.
Proof. exact remove_attribute_wrecks. Qed.
Example C09_remove_case : reach 11 tagged_st tagged_client /\ holds tagged_client 1 /\ holds tagged_client 0 /\
  type_of (s_heap tagged_st) 1 = Some ELEMENT /\ type_of (s_heap tagged_st) 0 = Some DOCUMENT /\ owner_of (s_heap tagged_st) 1 = Some 0 /\
  ~ read_only (s_heap tagged_st) 1 /\ unused_name (s_heap tagged_st) 1 lang_name /\ children (s_heap tagged_st) 1 [2; 3].
Proof. exact tagged_ready. Qed.

(** Refuted: with an attribute as the reference the children are lost and the
    attribute becomes a child. *)
Theorem C09_insert_refuted : exists k s g e c a l l' s', reach k s g /\ short (S k) /\ usable_by g e /\ usable_by g c /\ holds g a /\
  attribute_of (s_heap s) e a /\ children (s_heap s) e l /\
  insert_before e c (Some a) s = Ok c s' /\ children (s_heap s') e l' /\ In a l' /\ (forall x, In x l -> ~ In x l').
Proof. exact insert_refuted. Qed.

(** Refuted: with an attribute as the old child the children are lost. *)
Theorem C09_replace_refuted : exists k s g e c a l l' s', reach k s g /\ short (S k) /\ usable_by g e /\ usable_by g c /\ holds g a /\
  attribute_of (s_heap s) e a /\ children (s_heap s) e l /\
  replace_child e c a s = Ok a s' /\ children (s_heap s') e l' /\ l <> [] /\ (forall x, In x l -> ~ In x l').
Proof. exact replace_refuted. Qed.

Definition child_attr_theorems := (C09_attributes_not_children_partial, C09_edits_keep_attributes_partial, C09_foreign_attribute_partial,
  C09_remove_refuted, C09_insert_refuted, C09_replace_refuted).
Print Assumptions child_attr_theorems.
