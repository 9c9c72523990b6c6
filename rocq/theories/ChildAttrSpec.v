(** Attributes and children, as the client sees them. *)
From Coq Require Import List.
From Verif Require Import Base HeapModel HeapSpec HistModel.

(** The attributes of [e], in order. *)
Definition attributes (h : heap) (e : id) (l : list id) : Prop := exists n, h e = Some n /\ n_attrs n = l.
Definition attribute_of (h : heap) (e a : id) : Prop := exists l, attributes h e l /\ In a l.

(** The calls on child lists. *)
Definition edits_children (o : op) : Prop :=
  match o with OInsert _ _ _ | OAppend _ _ | OReplace _ _ _ | ORemove _ _ => True | _ => False end.

(** [e] has no attribute called [name], and [name] is not class. *)
Definition unused_name (h : heap) (e : id) (name : option bytes) : Prop :=
  name <> Some class_string /\ forall b nb, attribute_of h e b -> h b = Some nb -> n_name nb <> name.
