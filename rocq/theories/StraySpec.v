(** Specification of an empty element with a sibling after it. *)
From Coq Require Import List.
From Verif Require Import Base HeapModel HeapSpec HistModel TreeSpec WalkModel WalkSpec.
Import ListNotations.

(** [e] is an element without children, [y] comes next after it among the children of
    [p], and [e] is in the tree of a node without a parent. *)
Definition hollow (h : heap) (e : id) : Prop := type_of h e = Some ELEMENT /\ children h e [] /\
  (exists p l1 y l2, children h p (l1 ++ e :: y :: l2)) /\ exists top l, parent_of h top = None /\ order h top l /\ In e l.
