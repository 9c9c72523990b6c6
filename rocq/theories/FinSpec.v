(** What may happen to the strings of documents. *)
From Coq Require Import List NArith.
From Verif Require Import Base HeapModel FinModel.
Import ListNotations.

(** Tables stay away, the strings of a document stay the same, counts go down. *)
Definition onward (x x' : ext) : Prop :=
  (forall d, x_tables x' d = true -> x_tables x d = true) /\ x_strings x' = x_strings x /\ forall c, (x_count x' c <= x_count x c)%N.
(** No document has a string. *)
Definition quiet (x : ext) : Prop := forall d, x_strings x d = [].
