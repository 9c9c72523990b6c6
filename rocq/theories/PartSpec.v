(** Specification of the parts of a table. *)
From Coq Require Import List Arith NArith Bool.
From Verif Require Import Base HeapModel HeapSpec TreeSpec WalkModel WalkSpec HtmlModel HtmlSpec.
Import ListNotations.

(** The part of the table [e] with the children [l] that goes by a name: the first
    child element of that name. *)
Definition its (name : bytes) (h : heap) (e : id) (o : option id) : Prop :=
  type_of h e = Some ELEMENT /\ exists l, children h e l /\ first_that (part name h) l o.

(** [c] is moved to the end of the children of [e] and nothing else changes, except
    that [c] has one reference more. *)
Definition put_last (s : st) (e c : id) (s' : st) : Prop :=
  (forall j l, children (s_heap s) j l -> children (s_heap s') j (if Nat.eqb j e then without c l ++ [c] else without c l)) /\
  same_content (s_heap s) (s_heap s') c.
