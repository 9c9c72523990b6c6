(** C48: the options of a select element; C49: the rows of a table. *)
From Coq Require Import List Arith NArith ZArith Bool.
From Verif Require Import Base HeapModel HeapSpec HistModel TreeSpec WalkModel WalkSpec HtmlModel HtmlSpec HtmlReach HtmlWitness.
Import ListNotations.
Local Open Scope nat_scope.

(** ** C48 *)

(** The length is the number of option elements in the select. *)
Theorem C48_length : forall j s g e k, reach j s g -> briefly j -> options (s_heap s) e k -> select_length e s = Ok (N.of_nat (length k)) s.
Proof. exact reach_length. Qed.

(** selectedIndex is the position of the first option marked selected, -1 without one. *)
Theorem C48_selected_index : forall j s g e k, reach j s g -> briefly j -> options (s_heap s) e k ->
  exists z s', selected_index e s = Ok z s' /\ same_state s s' /\ first_index (carries (s_heap s) s_selected) k z.
Proof. exact reach_selected. Qed.

(** Setting it marks the option named, and no other; reading it back gives the first of
    the options marked before and the new one. *)
Theorem C48_set_selected_index_partial : forall j s g e k, reach j s g -> briefly j -> options (s_heap s) e k ->
  forall index x, (0 <= index)%Z -> nth_error k (Z.to_nat index) = Some x -> ~ read_only (s_heap s) x ->
  exists s' z s'', set_selected_index e index s = Ok tt s' /\ marked s x s_selected s' /\
    selected_index e s' = Ok z s'' /\ same_state s' s'' /\ first_index (fun y => carries (s_heap s) s_selected y \/ y = x) k z.
Proof. exact reach_set. Qed.

(** So an option marked before stays marked, and when it comes first the index set is
    not the one read. *)
Theorem C48_set_selected_index_refuted : forall j s g e k, reach j s g -> briefly j -> options (s_heap s) e k ->
  forall i x index y, nth_error k index = Some x -> ~ read_only (s_heap s) x -> nth_error k i = Some y -> i < index -> carries (s_heap s) s_selected y ->
  exists s' z s'', set_selected_index e (Z.of_nat index) s = Ok tt s' /\ selected_index e s' = Ok z s'' /\ z <> Z.of_nat index /\ carries (s_heap s') s_selected y.
Proof. exact reach_set_kept. Qed.

(** An index out of range is a NULL dereference, *)
Theorem C48_set_out_of_range_refuted : forall j s g e k, reach j s g -> briefly j -> options (s_heap s) e k ->
  forall index, (-2147483648 <= index < 2147483648)%Z -> index <> (-1)%Z -> nth_error k (Z.to_nat index) = None \/ (index < 0)%Z ->
  set_selected_index e index s = Bad NullDeref.
Proof. exact reach_set_out. Qed.

(** and -1 marks the select element itself. *)
Theorem C48_set_minus_one_refuted : forall j s g e k, reach j s g -> briefly j -> options (s_heap s) e k -> ~ read_only (s_heap s) e ->
  exists s', set_selected_index e (-1) s = Ok tt s' /\ marked s e s_selected s'.
Proof. exact reach_set_self. Qed.

(** Removing an option takes it from its parent, *)
Theorem C48_remove : forall j s g e k, reach j s g -> briefly j -> options (s_heap s) e k ->
  forall index x, (0 <= index)%Z -> nth_error k (Z.to_nat index) = Some x -> ~ read_only (s_heap s) x ->
  exists s' k', select_remove e index s = Ok tt s' /\ taken s x s' /\ lists false s_OPTION (s_heap s') e k' /\ picks (fun y => ~ anc (s_heap s) x y) k k'.
Proof. exact reach_remove. Qed.

(** and out of range does nothing. *)
Theorem C48_remove_out_of_range : forall j s g e k, reach j s g -> briefly j -> options (s_heap s) e k ->
  forall index, (index < 0 \/ Z.of_nat (length k) <= index)%Z -> select_remove e index s = Ok tt s.
Proof. exact reach_remove_out. Qed.

Example C48_case : reach 51 form form_client /\ briefly 51 /\ options (s_heap form) 2 [3; 4; 5] /\ nth_error [3; 4; 5] (Z.to_nat 2) = Some 5 /\ ~ read_only (s_heap form) 5 /\
  ~ read_only (s_heap form) 2 /\ carries (s_heap form) s_selected 4.
Proof. exact select_case. Qed.

(** ** C49 *)

(** A section: the new row goes before the row of that index, or to the end. *)
Theorem C49_section_insert : forall j s g e k, reach j s g -> briefly j -> rows (s_heap s) e k ->
  forall index, ~ read_only (s_heap s) e -> (-1 <= index <= Z.of_nat (length k))%Z -> (forall x, row_at k index = Some x -> parent_of (s_heap s) x = Some e) ->
  exists row s', section_insert_row e index s = Ok row s' /\ rowed s e row (row_at k index) s' /\ lists true s_TR (s_heap s') e (insert_at (row_at k index) [row] k).
Proof. exact reach_insert. Qed.
Theorem C49_section_insert_out_of_range : forall j s g e k, reach j s g -> briefly j -> rows (s_heap s) e k ->
  forall index, (index < -1 \/ Z.of_nat (length k) < index)%Z -> exists s', section_insert_row e index s = Exc INDEX_SIZE_ERR s' /\ unmoved s s'.
Proof. exact reach_insert_out. Qed.
(** A row further below is counted but cannot be inserted before. *)
Theorem C49_section_insert_refuted : forall j s g e k, reach j s g -> briefly j -> rows (s_heap s) e k ->
  forall index x, ~ read_only (s_heap s) e -> (0 <= index)%Z -> nth_error k (Z.to_nat index) = Some x -> parent_of (s_heap s) x <> Some e ->
  exists s', section_insert_row e index s = Exc NOT_FOUND_ERR s' /\ unmoved s s'.
Proof. exact reach_insert_nested. Qed.

Theorem C49_section_delete : forall j s g e k, reach j s g -> briefly j -> rows (s_heap s) e k ->
  forall index x, ~ read_only (s_heap s) e -> (-1 <= index)%Z -> row_named k index = Some x -> parent_of (s_heap s) x = Some e ->
  exists s' k', section_delete_row e index s = Ok tt s' /\ taken s x s' /\ lists true s_TR (s_heap s') e k' /\ picks (fun y => ~ anc (s_heap s) x y) k k'.
Proof. exact reach_delete. Qed.
Theorem C49_section_delete_out_of_range : forall j s g e k, reach j s g -> briefly j -> rows (s_heap s) e k ->
  forall index, (index < -1 \/ Z.of_nat (length k) <= index)%Z \/ k = [] -> section_delete_row e index s = Exc INDEX_SIZE_ERR s.
Proof. exact reach_delete_out. Qed.
Theorem C49_section_delete_refuted : forall j s g e k, reach j s g -> briefly j -> rows (s_heap s) e k ->
  forall index x, (-1 <= index)%Z -> row_named k index = Some x -> parent_of (s_heap s) x <> Some e ->
  exists s', section_delete_row e index s = Exc NOT_FOUND_ERR s' /\ same_state s s'.
Proof. exact reach_delete_nested. Qed.
(** An empty section before another one: both calls read a NULL pointer. *)
Theorem C49_empty_section_refuted : exists k s g t e f, reach k s g /\ briefly k /\ holds g e /\ children (s_heap s) e [] /\ part s_TBODY (s_heap s) e /\
  children (s_heap s) t [e; f] /\ section_insert_row e (-1) s = Bad NullDeref /\ section_delete_row e (-1) s = Bad NullDeref.
Proof. exact empty_section_case. Qed.

(** A table: out of range. *)
Theorem C49_table_out_of_range : forall j s g e k, reach j s g -> briefly j -> rows (s_heap s) e k -> forall index,
  ((index < -1 \/ Z.of_nat (length k) < index)%Z -> table_insert_row e index s = Exc INDEX_SIZE_ERR s) /\
  ((index < -1 \/ Z.of_nat (length k) <= index)%Z \/ k = [] -> table_delete_row e index s = Exc INDEX_SIZE_ERR s).
Proof. exact reach_table_out. Qed.
(** A table with rows and without a head: both calls read a NULL pointer. *)
Theorem C49_table_headless_refuted : forall j s g e k, reach j s g -> briefly j -> rows (s_heap s) e k -> forall l, children (s_heap s) e l ->
  forall index, k <> [] -> (forall x, In x l -> ~ part s_THEAD (s_heap s) x) ->
  ((-1 <= index <= Z.of_nat (length k))%Z -> table_insert_row e index s = Bad NullDeref) /\
  ((-1 <= index < Z.of_nat (length k))%Z -> table_delete_row e index s = Bad NullDeref).
Proof. exact reach_headless. Qed.
(** So they do with a head, past the rows of the head and the bodies, without a foot. *)
Theorem C49_table_footless_refuted : forall j s g e k, reach j s g -> briefly j -> rows (s_heap s) e k -> forall l, children (s_heap s) e l ->
  forall t kt, first_that (part s_THEAD (s_heap s)) l (Some t) -> rows (s_heap s) t kt -> k <> [] ->
  forall index m, body_rows (s_heap s) l m -> (forall x, In x l -> ~ part s_TFOOT (s_heap s) x) ->
  ((-1 <= index <= Z.of_nat (length k))%Z -> (Z.of_nat (length kt + m) <= at_index k true index)%Z -> length kt + m < length k -> table_insert_row e index s = Bad NullDeref) /\
  ((-1 <= index < Z.of_nat (length k))%Z -> (Z.of_nat (length kt + m) <= at_index k false index)%Z -> table_delete_row e index s = Bad NullDeref).
Proof. exact reach_footless. Qed.

(** With a head: the rows of the head come first, then those of the bodies, then those
    of the foot; the row goes into, or comes out of, the section the index falls in. *)
Theorem C49_table_insert_head : forall j s g e k, reach j s g -> briefly j -> rows (s_heap s) e k -> forall l, children (s_heap s) e l ->
  forall t kt, first_that (part s_THEAD (s_heap s)) l (Some t) -> rows (s_heap s) t kt -> k <> [] ->
  forall index, (-1 <= index <= Z.of_nat (length k))%Z -> ~ read_only (s_heap s) t -> (at_index k true index < Z.of_nat (length kt))%Z \/ length kt = length k ->
  (forall x, row_at kt (at_index k true index) = Some x -> parent_of (s_heap s) x = Some t) -> put_in s e index t kt (at_index k true index).
Proof. exact reach_put_head. Qed.
Theorem C49_table_insert_body : forall j s g e k, reach j s g -> briefly j -> rows (s_heap s) e k -> forall l, children (s_heap s) e l ->
  forall t kt, first_that (part s_THEAD (s_heap s)) l (Some t) -> rows (s_heap s) t kt -> k <> [] ->
  forall index a b c kb m, (-1 <= index <= Z.of_nat (length k))%Z -> ~ read_only (s_heap s) b -> l = a ++ b :: c -> body_rows (s_heap s) a m -> part s_TBODY (s_heap s) b ->
  rows (s_heap s) b kb -> (Z.of_nat (length kt + m) <= at_index k true index)%Z -> length kt + m < length k ->
  (at_index k true index < Z.of_nat (length kt + m + length kb))%Z \/ length kt + m + length kb = length k ->
  (forall x, row_at kb (at_index k true index - Z.of_nat (length kt + m)) = Some x -> parent_of (s_heap s) x = Some b) ->
  put_in s e index b kb (at_index k true index - Z.of_nat (length kt + m)).
Proof. exact reach_put_body. Qed.
Theorem C49_table_insert_foot : forall j s g e k, reach j s g -> briefly j -> rows (s_heap s) e k -> forall l, children (s_heap s) e l ->
  forall t kt, first_that (part s_THEAD (s_heap s)) l (Some t) -> rows (s_heap s) t kt -> k <> [] ->
  forall index m tf kf, (-1 <= index <= Z.of_nat (length k))%Z -> ~ read_only (s_heap s) tf -> body_rows (s_heap s) l m -> first_that (part s_TFOOT (s_heap s)) l (Some tf) ->
  rows (s_heap s) tf kf -> (Z.of_nat (length kt + m) <= at_index k true index)%Z -> length kt + m < length k ->
  (at_index k true index < Z.of_nat (length kt + m + length kf))%Z \/ length kt + m + length kf = length k ->
  (forall x, row_at kf (at_index k true index - Z.of_nat (length kt + m)) = Some x -> parent_of (s_heap s) x = Some tf) ->
  put_in s e index tf kf (at_index k true index - Z.of_nat (length kt + m)).
Proof. exact reach_put_foot. Qed.
Theorem C49_table_delete_head : forall j s g e k, reach j s g -> briefly j -> rows (s_heap s) e k -> forall l, children (s_heap s) e l ->
  forall t kt, first_that (part s_THEAD (s_heap s)) l (Some t) -> rows (s_heap s) t kt -> k <> [] ->
  forall index x, (-1 <= index < Z.of_nat (length k))%Z -> ~ read_only (s_heap s) t -> (at_index k false index < Z.of_nat (length kt))%Z ->
  row_named kt (at_index k false index) = Some x -> parent_of (s_heap s) x = Some t -> cut_from s e index t kt x.
Proof. exact reach_cut_head. Qed.
Theorem C49_table_delete_body : forall j s g e k, reach j s g -> briefly j -> rows (s_heap s) e k -> forall l, children (s_heap s) e l ->
  forall t kt, first_that (part s_THEAD (s_heap s)) l (Some t) -> rows (s_heap s) t kt -> k <> [] ->
  forall index a b c kb m x, (-1 <= index < Z.of_nat (length k))%Z -> ~ read_only (s_heap s) b -> l = a ++ b :: c -> body_rows (s_heap s) a m -> part s_TBODY (s_heap s) b ->
  rows (s_heap s) b kb -> (Z.of_nat (length kt + m) <= at_index k false index < Z.of_nat (length kt + m + length kb))%Z ->
  row_named kb (at_index k false index - Z.of_nat (length kt + m)) = Some x -> parent_of (s_heap s) x = Some b -> cut_from s e index b kb x.
Proof. exact reach_cut_body. Qed.
Theorem C49_table_delete_foot : forall j s g e k, reach j s g -> briefly j -> rows (s_heap s) e k -> forall l, children (s_heap s) e l ->
  forall t kt, first_that (part s_THEAD (s_heap s)) l (Some t) -> rows (s_heap s) t kt -> k <> [] ->
  forall index m tf kf x, (-1 <= index < Z.of_nat (length k))%Z -> ~ read_only (s_heap s) tf -> body_rows (s_heap s) l m -> first_that (part s_TFOOT (s_heap s)) l (Some tf) ->
  rows (s_heap s) tf kf -> (Z.of_nat (length kt + m) <= at_index k false index < Z.of_nat (length kt + m + length kf))%Z ->
  row_named kf (at_index k false index - Z.of_nat (length kt + m)) = Some x -> parent_of (s_heap s) x = Some tf -> cut_from s e index tf kf x.
Proof. exact reach_cut_foot. Qed.

Example C49_section_case : reach 51 form form_client /\ briefly 51 /\ rows (s_heap form) 10 [11; 12] /\ ~ read_only (s_heap form) 10 /\ row_at [11; 12] 1 = Some 12 /\
  row_named [11; 12] (-1) = Some 12 /\ parent_of (s_heap form) 12 = Some 10 /\
  rows (s_heap form) 16 [18] /\ ~ read_only (s_heap form) 16 /\ row_named [18] 0 = Some 18 /\ parent_of (s_heap form) 18 = Some 17.
Proof. exact section_case. Qed.
Example C49_table_case : reach 51 form form_client /\ briefly 51 /\ rows (s_heap form) 7 [9; 11; 12; 14] /\ children (s_heap form) 7 [8; 10; 13] /\
  first_that (part s_THEAD (s_heap form)) [8; 10; 13] (Some 8) /\ rows (s_heap form) 8 [9] /\ body_rows (s_heap form) [8] 0 /\ part s_TBODY (s_heap form) 10 /\
  rows (s_heap form) 10 [11; 12] /\ body_rows (s_heap form) [8; 10; 13] 2 /\ first_that (part s_TFOOT (s_heap form)) [8; 10; 13] (Some 13) /\ rows (s_heap form) 13 [14] /\
  ~ read_only (s_heap form) 8 /\ ~ read_only (s_heap form) 10 /\ ~ read_only (s_heap form) 13 /\
  parent_of (s_heap form) 9 = Some 8 /\ parent_of (s_heap form) 12 = Some 10 /\ parent_of (s_heap form) 14 = Some 13.
Proof. exact table_case. Qed.
Example C49_headless_case : reach 51 form form_client /\ briefly 51 /\ rows (s_heap form) 15 [18] /\ children (s_heap form) 15 [16] /\
  (forall x, In x [16] -> ~ part s_THEAD (s_heap form) x).
Proof. exact headless_case. Qed.
Example C49_footless_case : reach 51 form form_client /\ briefly 51 /\ rows (s_heap form) 22 [24; 25] /\ children (s_heap form) 22 [23; 25] /\
  first_that (part s_THEAD (s_heap form)) [23; 25] (Some 23) /\ rows (s_heap form) 23 [24] /\ body_rows (s_heap form) [23; 25] 0 /\
  (forall x, In x [23; 25] -> ~ part s_TFOOT (s_heap form) x) /\ (Z.of_nat (length [24]%nat + 0) <= at_index [24; 25]%nat true (-1))%Z.
Proof. exact footless_case. Qed.

Definition C48_theorems := (C48_length, C48_selected_index, C48_set_selected_index_partial, C48_set_selected_index_refuted, C48_set_out_of_range_refuted, C48_set_minus_one_refuted,
  C48_remove, C48_remove_out_of_range).
Print Assumptions C48_theorems.
Definition C49_theorems := (C49_section_insert, C49_section_insert_out_of_range, C49_section_insert_refuted, C49_section_delete, C49_section_delete_out_of_range, C49_section_delete_refuted,
  C49_empty_section_refuted, C49_table_out_of_range, C49_table_headless_refuted, C49_table_footless_refuted, C49_table_insert_head, C49_table_insert_body, C49_table_insert_foot,
  C49_table_delete_head, C49_table_delete_body, C49_table_delete_foot).
Print Assumptions C49_theorems.
