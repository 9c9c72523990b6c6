(** What the title, the body and the collections of a document are. *)
From Coq Require Import List Arith NArith Bool.
From Verif Require Import Base HeapModel HeapSpec TreeSpec WalkSpec HtmlSpec DocModel.
Import ListNotations.

(** The document element: the first element among the children. *)
Definition root_element (h : heap) (d : id) (o : option id) : Prop :=
  exists l, children h d l /\ first_that (fun i => type_of h i = Some ELEMENT) l o.
Definition tag (h : heap) (name : bytes) (i : id) : Prop := exists n, h i = Some n /\ has_tag true name n.
(** Images, anchors that lead somewhere, forms, named anchors. *)
Definition belongs (c : coll) (h : heap) (i : id) : Prop :=
  match c with
  | IMAGES => tag h s_IMG i
  | LINKS => (tag h s_A i \/ tag h s_AREA i) /\ carries h s_href i
  | FORMS => tag h s_FORM i
  | ANCHORS => tag h s_A i /\ carries h s_name i
  end.
(** [k] are the members in document order; the document element has children or no sibling
    after it (C18), and there are fewer than 2^32 nodes. *)
Definition members (c : coll) (h : heap) (d : id) (k : list id) : Prop :=
  exists r l, root_element h d (Some r) /\ filled h r /\ order h r l /\ (N.of_nat (length l) < two32)%N /\ picks (belongs c h) l k.
(** A document, and what is below it of that name. *)
Definition below (h : heap) (d : id) (name : bytes) (k : list id) : Prop :=
  type_of h d = Some DOCUMENT /\ below_count h d /\ descendants h d (has_tag true name) k.
