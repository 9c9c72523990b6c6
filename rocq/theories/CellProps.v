(** C55: the cells of a table row and the index of a row. *)
From Coq Require Import List Arith NArith ZArith Bool.
From Verif Require Import Base HeapModel HeapSpec HistModel TreeSpec WalkModel WalkSpec HtmlModel HtmlSpec CellModel CellSpec CellReach CellWitness.
Import ListNotations.
Local Open Scope nat_scope.

(** ** Cells *)

(** insertCell puts a new td where the index says. *)
Theorem C55_insert_cell : forall j s g e k, reach j s g -> briefly j -> cells (s_heap s) e k ->
  forall index, ~ read_only (s_heap s) e -> (-1 <= index <= Z.of_nat (length k))%Z -> (forall x, row_at k index = Some x -> parent_of (s_heap s) x = Some e) ->
  exists cell s', row_insert_cell e index s = Ok cell s' /\ celled s e cell (row_at k index) s' /\ lists true s_TD (s_heap s') e (insert_at (row_at k index) [cell] k).
Proof. exact reach_cell. Qed.

(** An index out of range is an error that moves nothing. *)
Theorem C55_insert_cell_out_of_range : forall j s g e k, reach j s g -> briefly j -> cells (s_heap s) e k ->
  forall index, (index < -1 \/ Z.of_nat (length k) < index)%Z -> exists s', row_insert_cell e index s = Exc INDEX_SIZE_ERR s' /\ unmoved s s'.
Proof. exact reach_cell_out. Qed.

(** A cell deeper than a child is counted, but nothing goes before it. *)
Theorem C55_insert_cell_refuted : forall j s g e k, reach j s g -> briefly j -> cells (s_heap s) e k ->
  forall index x, ~ read_only (s_heap s) e -> (0 <= index)%Z -> nth_error k (Z.to_nat index) = Some x -> parent_of (s_heap s) x <> Some e ->
  exists s', row_insert_cell e index s = Exc NOT_FOUND_ERR s' /\ unmoved s s'.
Proof. exact reach_cell_nested. Qed.

(** deleteCell takes the cell the index names, *)
Theorem C55_delete_cell : forall j s g e k, reach j s g -> briefly j -> cells (s_heap s) e k ->
  forall index x, ~ read_only (s_heap s) e -> (-1 <= index)%Z -> row_named k index = Some x -> parent_of (s_heap s) x = Some e ->
  exists s' k', row_delete_cell e index s = Ok tt s' /\ taken s x s' /\ lists true s_TD (s_heap s') e k' /\ picks (fun y => ~ anc (s_heap s) x y) k k'.
Proof. exact reach_uncell. Qed.

(** refuses an index out of range, *)
Theorem C55_delete_cell_out_of_range : forall j s g e k, reach j s g -> briefly j -> cells (s_heap s) e k ->
  forall index, (index < -1 \/ Z.of_nat (length k) <= index)%Z \/ k = [] -> row_delete_cell e index s = Exc INDEX_SIZE_ERR s.
Proof. exact reach_uncell_out. Qed.

(** and does not find a cell deeper than a child. *)
Theorem C55_delete_cell_refuted : forall j s g e k, reach j s g -> briefly j -> cells (s_heap s) e k ->
  forall index x, (-1 <= index)%Z -> row_named k index = Some x -> parent_of (s_heap s) x <> Some e ->
  exists s', row_delete_cell e index s = Exc NOT_FOUND_ERR s' /\ same_state s s'.
Proof. exact reach_uncell_nested. Qed.

Example C55_cells_case : reach 33 grid grid_client /\ briefly 33 /\ cells (s_heap grid) 8 [10; 11] /\ ~ read_only (s_heap grid) 8 /\ row_at [10; 11] 1 = Some 11 /\ row_named [10; 11] (-1) = Some 11 /\
  parent_of (s_heap grid) 11 = Some 8 /\ cells (s_heap grid) 9 [13] /\ ~ read_only (s_heap grid) 9 /\ row_named [13] 0 = Some 13 /\ parent_of (s_heap grid) 13 = Some 12.
Proof. exact cells_case. Qed.

(** ** The index in the section *)

(** sectionRowIndex is the place of the row in the rows of its section, *)
Theorem C55_section_row_index : forall j s g e k, reach j s g -> briefly j ->
  forall i x, rows (s_heap s) e k -> flat (s_heap s) e k -> nth_error k i = Some x -> section_row_index x s = Ok (Z.of_nat i) s.
Proof. exact reach_index. Qed.

(** that is, the number of rows among the siblings before it, whatever else there is; *)
Theorem C55_section_row_index_counts : forall j s g p row a b, reach j s g -> briefly j -> children (s_heap s) p (a ++ row :: b) -> part s_TR (s_heap s) row ->
  (N.of_nat (length a) < 2147483648)%N -> forall m, row_count (s_heap s) a m -> section_row_index row s = Ok (Z.of_nat m) s.
Proof. exact reach_count. Qed.

(** and a row inserted at an index has that index. *)
Theorem C55_insert_row_index : forall j s g e k, reach j s g -> briefly j ->
  forall index, rows (s_heap s) e k -> flat (s_heap s) e k -> ~ read_only (s_heap s) e -> (-1 <= index <= Z.of_nat (length k))%Z ->
  exists row s', section_insert_row e index s = Ok row s' /\ rowed s e row (row_at k index) s' /\
    section_row_index row s' = Ok (if (index =? -1)%Z then Z.of_nat (length k) else index) s'.
Proof. exact reach_round. Qed.

Example C55_flat_case : reach 33 grid grid_client /\ briefly 33 /\ rows (s_heap grid) 7 [8; 9] /\ flat (s_heap grid) 7 [8; 9] /\ ~ read_only (s_heap grid) 7 /\ nth_error [8; 9] 1 = Some 9.
Proof. exact flat_case. Qed.

(** ** The index in the table *)

(** In the head it is the index in the section. *)
Theorem C55_row_index_head : forall j s g p row a b, reach j s g -> briefly j -> children (s_heap s) p (a ++ row :: b) -> part s_TR (s_heap s) row ->
  (N.of_nat (length a) < 2147483648)%N -> forall q c d, children (s_heap s) q (c ++ p :: d) -> part s_TABLE (s_heap s) q ->
  forall m, row_count (s_heap s) a m -> part s_THEAD (s_heap s) p -> row_index row s = Ok (Z.of_nat m) s.
Proof. exact reach_index_head. Qed.

(** In a body or the foot the rows of the head and of the bodies before it are added. *)
Theorem C55_row_index_body : forall j s g p row a b, reach j s g -> briefly j -> children (s_heap s) p (a ++ row :: b) -> part s_TR (s_heap s) row ->
  forall q c d, children (s_heap s) q (c ++ p :: d) -> part s_TABLE (s_heap s) q ->
  forall m mh mb, row_count (s_heap s) a m -> part s_TBODY (s_heap s) p \/ part s_TFOOT (s_heap s) p -> head_rows (s_heap s) (c ++ p :: d) mh ->
  body_rows (s_heap s) c mb -> names_elements s_TBODY (s_heap s) c -> (N.of_nat (length a + mh + mb) < 2147483648)%N ->
  exists s', row_index row s = Ok (Z.of_nat (m + mh + mb)) s' /\ same_state s s'.
Proof. exact reach_index_body. Qed.

Example C55_index_case : reach 33 grid grid_client /\ briefly 33 /\ children (s_heap grid) 2 [3; 5; 7; 17] /\ part s_TABLE (s_heap grid) 2 /\ part s_THEAD (s_heap grid) 3 /\ children (s_heap grid) 3 [4] /\
  children (s_heap grid) 7 [8; 9] /\ part s_TR (s_heap grid) 4 /\ part s_TR (s_heap grid) 9 /\ part s_TBODY (s_heap grid) 7 /\ row_count (s_heap grid) [8] 1 /\
  head_rows (s_heap grid) [3; 5; 7; 17] 1 /\ body_rows (s_heap grid) [3; 5] 0 /\ names_elements s_TBODY (s_heap grid) [3; 5].
Proof. exact index_case. Qed.

(** Where the foot comes before a body, two rows have the same index. *)
Theorem C55_row_index_refuted : forall j s g q c f d b e x x' af bf ab bb m mh mb, reach j s g -> briefly j -> children (s_heap s) q (c ++ f :: d ++ b :: e) -> part s_TABLE (s_heap s) q ->
  part s_TFOOT (s_heap s) f -> part s_TBODY (s_heap s) b -> names_elements s_TBODY (s_heap s) (c ++ f :: d) -> head_rows (s_heap s) (c ++ f :: d ++ b :: e) mh ->
  body_rows (s_heap s) c mb -> body_rows (s_heap s) (c ++ f :: d) mb -> children (s_heap s) f (af ++ x :: bf) -> children (s_heap s) b (ab ++ x' :: bb) ->
  part s_TR (s_heap s) x -> part s_TR (s_heap s) x' -> row_count (s_heap s) af m -> row_count (s_heap s) ab m ->
  (N.of_nat (length af + length ab + mh + mb) < 2147483648)%N ->
  x <> x' /\ exists s' s'', row_index x s = Ok (Z.of_nat (m + mh + mb)) s' /\ row_index x' s = Ok (Z.of_nat (m + mh + mb)) s''.
Proof. exact reach_twins. Qed.

Example C55_twins_case : reach 33 grid grid_client /\ briefly 33 /\ children (s_heap grid) 2 ([3] ++ 5 :: [] ++ 7 :: [17]) /\ part s_TABLE (s_heap grid) 2 /\ part s_TFOOT (s_heap grid) 5 /\
  part s_TBODY (s_heap grid) 7 /\ names_elements s_TBODY (s_heap grid) ([3] ++ 5 :: []) /\ head_rows (s_heap grid) ([3] ++ 5 :: [] ++ 7 :: [17]) 1 /\ body_rows (s_heap grid) [3] 0 /\
  body_rows (s_heap grid) ([3] ++ 5 :: []) 0 /\ children (s_heap grid) 5 ([] ++ 6 :: []) /\ children (s_heap grid) 7 ([] ++ 8 :: [9]) /\ part s_TR (s_heap grid) 6 /\ part s_TR (s_heap grid) 8 /\
  row_count (s_heap grid) [] 0.
Proof. exact twins_case. Qed.

(** A row that has no parent dereferences NULL for both indexes, *)
Theorem C55_detached_row_refuted : forall s row, parent_of (s_heap s) row = None -> live (s_heap s) row -> section_row_index row s = Bad NullDeref /\ row_index row s = Bad NullDeref.
Proof. exact reach_index_detached. Qed.

(** so does a row in a section that has none, *)
Theorem C55_detached_section_refuted : forall j s g p row a b, reach j s g -> briefly j -> children (s_heap s) p (a ++ row :: b) -> part s_TR (s_heap s) row ->
  (N.of_nat (length a) < 2147483648)%N -> parent_of (s_heap s) p = None -> row_index row s = Bad NullDeref.
Proof. exact reach_orphan. Qed.

(** and a row in no section of a table, such as a child of the table, is an error. *)
Theorem C55_row_elsewhere : forall j s g p row a b, reach j s g -> briefly j -> children (s_heap s) p (a ++ row :: b) -> part s_TR (s_heap s) row ->
  (N.of_nat (length a) < 2147483648)%N -> forall q, parent_of (s_heap s) p = Some q -> type_of (s_heap s) p = Some ELEMENT -> type_of (s_heap s) q = Some ELEMENT ->
  ~ part s_TABLE (s_heap s) q \/ (~ part s_THEAD (s_heap s) p /\ ~ part s_TBODY (s_heap s) p /\ ~ part s_TFOOT (s_heap s) p) -> row_index row s = Exc HIERARCHY_REQUEST_ERR s.
Proof. exact reach_elsewhere. Qed.

Example C55_astray_case : reach 33 grid grid_client /\ briefly 33 /\ parent_of (s_heap grid) 14 = None /\ live (s_heap grid) 14 /\
  children (s_heap grid) 15 [16] /\ part s_TR (s_heap grid) 16 /\ parent_of (s_heap grid) 15 = None /\
  children (s_heap grid) 2 ([3; 5; 7] ++ 17 :: []) /\ part s_TR (s_heap grid) 17 /\ parent_of (s_heap grid) 2 = Some 1 /\ type_of (s_heap grid) 2 = Some ELEMENT /\
  type_of (s_heap grid) 1 = Some ELEMENT /\ ~ part s_TABLE (s_heap grid) 1.
Proof. exact astray_case. Qed.

Definition C55_theorems := (C55_insert_cell, C55_insert_cell_out_of_range, C55_insert_cell_refuted, C55_delete_cell, C55_delete_cell_out_of_range, C55_delete_cell_refuted,
  C55_section_row_index, C55_section_row_index_counts, C55_insert_row_index, C55_row_index_head, C55_row_index_body, C55_row_index_refuted, C55_detached_row_refuted, C55_detached_section_refuted, C55_row_elsewhere).
Print Assumptions C55_theorems.
