(** What belongs to a form. *)
From Coq Require Import List Arith NArith Bool.
From Verif Require Import Base HeapModel HeapSpec TreeSpec WalkSpec HtmlSpec DocModel DocSpec FormModel.
Import ListNotations.

Definition is_control (h : heap) (i : id) : Prop := tag h s_INPUT i \/ tag h s_TEXTAREA i \/ tag h s_SELECT i \/ tag h s_BUTTON i.
(** [k] are the controls of the document [d] that point at the form [f], in document
    order; the document is not empty and has fewer than 2^32 nodes. *)
Definition controls (p : pointers) (h : heap) (f d : id) (k : list id) : Prop :=
  exists x l, order h d (d :: x :: l) /\ (N.of_nat (length (d :: x :: l)) < two32)%N /\ picks (fun i => is_control h i /\ p i = Some f) (d :: x :: l) k.
(** The first element of that name, from a node upwards. *)
Inductive closest (h : heap) (name : bytes) : option id -> option id -> Prop :=
| cl_none : closest h name None None
| cl_here i : tag h name i -> closest h name (Some i) (Some i)
| cl_up i o : ~ tag h name i -> closest h name (parent_of h i) o -> closest h name (Some i) o.
Definition closest_above (h : heap) (name : bytes) (i : id) (o : option id) : Prop := closest h name (parent_of h i) o.
