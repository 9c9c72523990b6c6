(** C18, C48, C49, C55: collections on an empty element that has a sibling after it, and
    the calls that count with one. *)
From Coq Require Import List Arith NArith ZArith Bool.
From Verif Require Import Base HeapModel HeapSpec HistModel HistProofs TreeSpec WalkModel WalkSpec HtmlModel HtmlSpec StraySpec StrayProofs StrayHtml WalkWitness StrayWitness.
Import ListNotations.

(** Whatever is collected, getLength ends in a NULL dereference; item answers elements
    that come after the root in the whole tree, and ends in a NULL dereference after the
    last of them. *)
Theorem C18_empty_root_always_refuted : forall s, linked s -> forall collected root n p y,
  s_heap s root = Some n -> n_type n = ELEMENT -> n_first n = None -> n_parent n = Some p -> n_next n = Some y ->
  forall top a b, parent_of (s_heap s) top = None -> order (s_heap s) top (a ++ root :: b) ->
  col_length collected root s = Bad NullDeref /\
  (counted s -> (N.of_nat (length (root :: b)) < two32)%N ->
   forall k, picks (fun i => type_of (s_heap s) i = Some ELEMENT /\ collected i = true) (root :: b) k -> forall index, (index + 1 < two32)%N ->
   match nth_error k (N.to_nat index) with
   | Some x => exists s', col_item collected root index s = Ok (Some x) s' /\ answered s (Some x) s'
   | None => col_item collected root index s = Bad NullDeref
   end).
Proof. exact stray. Qed.

Example C18_empty_root_case : linked lists_st /\ counted lists_st /\
  exists n, s_heap lists_st 3 = Some n /\ n_type n = ELEMENT /\ n_first n = None /\ n_parent n = Some 1 /\ n_next n = Some 4 /\
    parent_of (s_heap lists_st) 0 = None /\ order (s_heap lists_st) 0 ([0; 1; 2] ++ 3 :: [4]).
Proof. exact strayed. Qed.

(** Therefore, in every document: length and selectedIndex of such a select; *)
Theorem C48_empty_select_refuted : forall j s g e, reach j s g -> briefly j -> hollow (s_heap s) e ->
  select_length e s = Bad NullDeref /\ selected_index e s = Bad NullDeref.
Proof. exact stray_select. Qed.

(** rows, insertRow and deleteRow of such a table or section, for every index; *)
Theorem C49_empty_table_refuted : forall j s g e, reach j s g -> briefly j -> hollow (s_heap s) e ->
  rows_length e s = Bad NullDeref /\ forall index, table_insert_row e index s = Bad NullDeref /\ table_delete_row e index s = Bad NullDeref /\
    section_insert_row e index s = Bad NullDeref /\ section_delete_row e index s = Bad NullDeref.
Proof. exact stray_table. Qed.

(** insertCell and deleteCell of such a row. *)
Theorem C55_empty_row_refuted : forall j s g e, reach j s g -> briefly j -> hollow (s_heap s) e ->
  forall index, row_insert_cell e index s = Bad NullDeref /\ row_delete_cell e index s = Bad NullDeref.
Proof. exact stray_row. Qed.

(** A select, a table, a body and a row in one document. *)
Example hollow_case : reach 17 hol hol_client /\ briefly 17 /\ forall e, In e [2; 3; 5; 7] -> hollow (s_heap hol) e.
Proof. exact (conj hol_reach (conj hol_brief hol_case)). Qed.

Definition stray_theorems := (C18_empty_root_always_refuted, C48_empty_select_refuted, C49_empty_table_refuted, C55_empty_row_refuted).
Print Assumptions stray_theorems.
