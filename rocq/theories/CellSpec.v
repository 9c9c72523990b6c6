(** Specification of the index of a row. *)
From Coq Require Import List Arith NArith ZArith Bool.
From Verif Require Import Base HeapModel HeapSpec TreeSpec WalkSpec HtmlModel HtmlSpec CellModel.
Import ListNotations.

(** [m] of the nodes of [l] are rows. *)
Definition row_count (h : heap) (l : list id) (m : nat) : Prop := exists k, picks (part s_TR h) l k /\ m = length k.

(** Every row of the section is its child: no tables within its cells. *)
Definition flat (h : heap) (e : id) (k : list id) : Prop := forall x, In x k -> parent_of h x = Some e.

(** Only elements bear the name. *)
Definition names_elements (name : bytes) (h : heap) (l : list id) : Prop :=
  forall x n b, In x l -> h x = Some n -> n_name n = Some b -> fold_case true b = fold_case true name -> n_type n = ELEMENT.

(** [m] rows are in the head of a table with the children [l], if it has one. *)
Definition head_rows (h : heap) (l : list id) (m : nat) : Prop :=
  exists o, first_that (part s_THEAD h) l o /\ match o with Some t => exists k, rows h t k /\ m = length k | None => m = 0 end.
