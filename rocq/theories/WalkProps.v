(** Theorems about walks over the tree: node lists, HTML collections,
    getElementById, the tree walker and textContent (C15 to C21).

    They are stated for all well-linked heaps ([linked]) in which another
    reference can be counted; [walk_states] says that every state a careful
    client reaches is one. *)
From Coq Require Import List Arith NArith Bool.
From Verif Require Import Base HeapModel HeapSpec HistModel TreeSpec TreeWitness WalkModel WalkSpec
  WalkLists WalkFinds WalkIds WalkTree WalkText WalkReach WalkMore WalkWitness.
Import ListNotations.

Theorem walk_states : forall k s g, reach k s g -> short k -> linked s /\ counted s.
Proof. exact reach_states. Qed.

(** ** C15: childNodes *)
Theorem C15_child_nodes : forall s, linked s -> counted s -> forall root l,
  children (s_heap s) root l -> (N.of_nat (length l) < two32)%N ->
  list_length (list_children root) s = Ok (N.of_nat (length l)) s /\
  forall index, (index < two32)%N -> exists s',
    list_item (list_children root) index s = Ok (nth_error l (N.to_nat index)) s' /\
    answered s (nth_error l (N.to_nat index)) s'.
Proof. exact children_list. Qed.

Example C15_case : linked page /\ counted page /\ children (s_heap page) 4 [6; 7; 5] /\
  item_of (list_item (list_children 4) 1 page) = Some (Some 7) /\ item_of (list_item (list_children 4) 3 page) = Some None.
Proof. exact page_child_nodes. Qed.

(** ** C16: getElementsByTagName *)

(** For all indices but 2^32 - 1, names being local names. *)
Theorem C16_by_tag_name_partial : forall s, linked s -> counted s -> forall caseless root name k,
  below_count (s_heap s) root -> descendants (s_heap s) root (has_tag caseless name) k ->
  list_length (list_by_name caseless root name) s = Ok (N.of_nat (length k)) s /\
  forall index, (index + 1 < two32)%N -> exists s',
    list_item (list_by_name caseless root name) index s = Ok (nth_error k (N.to_nat index)) s' /\
    answered s (nth_error k (N.to_nat index)) s'.
Proof. exact by_tag_name. Qed.

Theorem C16_largest_index_refuted : exists k s g root name x s1 s', reach k s g /\ short k /\
  list_length (list_by_name false root name) s = Ok 0%N s1 /\
  list_item (list_by_name false root name) (two32 - 1) s = Ok (Some x) s'.
Proof. exact max_index. Qed.

Theorem C16_prefixed_names_refuted : exists k s g root i tag s1 s', reach k s g /\ short k /\
  order (s_heap s) root [root; i; 3; 4] /\ type_of (s_heap s) i = Some ELEMENT /\ get_node_name i s = Ok tag s' /\
  list_length (list_by_name false root tag) s = Ok 0%N s1.
Proof. exact prefixed. Qed.

Example C16_case : linked page /\ counted page /\ below_count (s_heap page) 0 /\
  descendants (s_heap page) 0 (has_tag true s_DIV) [2; 7] /\
  item_of (list_item (list_by_name true 0 s_DIV) 1 page) = Some (Some 7).
Proof. exact page_by_tag. Qed.

(** ** C17: lists by namespace *)
Theorem C17_by_namespace_partial : forall s, linked s -> counted s -> forall caseless root ns local k,
  no_null ns <> [] -> below_count (s_heap s) root -> descendants (s_heap s) root (has_ns_tag caseless ns local) k ->
  list_length (list_by_ns caseless root ns local) s = Ok (N.of_nat (length k)) s /\
  forall index, (index + 1 < two32)%N -> exists s',
    list_item (list_by_ns caseless root ns local) index s = Ok (nth_error k (N.to_nat index)) s' /\
    answered s (nth_error k (N.to_nat index)) s'.
Proof. exact by_namespace. Qed.

(** getLength is right for every namespace. *)
Theorem C17_length_partial : forall s, linked s -> counted s -> forall caseless root ns local k,
  below_count (s_heap s) root -> descendants (s_heap s) root (has_ns_tag caseless ns local) k ->
  list_length (list_by_ns caseless root ns local) s = Ok (N.of_nat (length k)) s.
Proof. exact by_namespace_length. Qed.

Theorem C17_no_namespace_refuted : exists k s g root local s1 s', reach k s g /\ short k /\
  list_length (list_by_ns false root None local) s = Ok 2%N s1 /\
  list_item (list_by_ns false root None local) 0 s = Ok None s'.
Proof. exact null_ns. Qed.

Example C17_case : linked lists_st /\ counted lists_st /\ below_count (s_heap lists_st) 0 /\
  descendants (s_heap lists_st) 0 (has_ns_tag false (Some s_svg) (Some [42%N])) [2] /\
  item_of (list_item (list_by_ns false 0 (Some s_svg) (Some [42%N])) 0 lists_st) = Some (Some 2).
Proof. exact lists_by_ns. Qed.

(** ** C18: HTML collections *)

(** For collections whose root has a child, or no sibling after it. *)
Theorem C18_collections_partial : forall s, linked s -> counted s -> forall collected root,
  (exists n, s_heap s root = Some n /\ (n_first n <> None \/ n_next n = None)) ->
  forall l k, order (s_heap s) root l -> (N.of_nat (length l) < two32)%N ->
  picks (fun i => type_of (s_heap s) i = Some ELEMENT /\ collected i = true) l k ->
  col_length collected root s = Ok (N.of_nat (length k)) s /\
  (forall index, (index + 1 < two32)%N -> exists s',
     col_item collected root index s = Ok (nth_error k (N.to_nat index)) s' /\ answered s (nth_error k (N.to_nat index)) s') /\
  (plain_attributes (s_heap s) -> forall name, exists o s',
     col_named collected root name s = Ok o s' /\ answered s o s' /\
     first_that (fun i => has_attr (s_heap s) i id_string name \/ has_attr (s_heap s) i name_string name) k o).
Proof. exact collection_list. Qed.

Theorem C18_empty_root_refuted : exists k s g root n, reach k s g /\ short k /\ s_heap s root = Some n /\ n_first n = None /\
  col_length (fun _ => true) root s = Bad NullDeref.
Proof. exact empty_root. Qed.

Theorem C18_largest_index_refuted : exists k s g root x s1 s', reach k s g /\ short k /\
  col_length (fun _ => false) root s = Ok 0%N s1 /\ col_item (fun _ => false) root (two32 - 1) s = Ok (Some x) s'.
Proof. exact col_max. Qed.

Example C18_case : linked page /\ counted page /\ plain_attributes (s_heap page) /\
  order (s_heap page) 4 [4; 6; 7; 5] /\
  picks (fun i => type_of (s_heap page) i = Some ELEMENT /\ not_doc i = true) [4; 6; 7; 5] [4; 7] /\
  item_of (col_item not_doc 4 1 page) = Some (Some 7) /\ item_of (col_named not_doc 4 s_a page) = Some (Some 7) /\
  item_of (col_named not_doc 1 s_a page) = Some (Some 2).
Proof. exact page_collection. Qed.

(** ** C19: getElementById *)

(** For documents with at most one root element. *)
Theorem C19_by_id_partial : forall s, linked s -> counted s -> forall d nd want l,
  s_heap s d = Some nd -> n_type nd = DOCUMENT -> n_next nd = None -> at_most_one (s_heap s) d ELEMENT ->
  order (s_heap s) d (d :: l) ->
  exists o s', get_element_by_id d want s = Ok o s' /\ answered s o s' /\
    first_that (fun i => has_attr (s_heap s) i id_string (no_null want)) l o.
Proof. exact by_id. Qed.

Theorem C19_two_roots_refuted : exists s d l x v s', linked s /\ counted s /\ type_of (s_heap s) d = Some DOCUMENT /\
  order (s_heap s) d (d :: l) /\ In x l /\ has_attr (s_heap s) x id_string v /\ get_element_by_id d (Some v) s = Ok None s'.
Proof. exact two_roots. Qed.

Example C19_case : linked page /\ counted page /\ at_most_one (s_heap page) 0 ELEMENT /\
  order (s_heap page) 0 [0; 1; 2; 3; 4; 6; 7; 5; 12] /\ has_attr (s_heap page) 2 id_string s_a /\
  item_of (get_element_by_id 0 (Some s_a) page) = Some (Some 2) /\ item_of (get_element_by_id 0 (Some s_hi) page) = Some None.
Proof. exact page_by_id. Qed.

(** ** C20: the tree walker *)

(** For masks that include ENTER, that have no LEAVE, and for clients that never
    answer SKIP. *)
Theorem C20_treewalk_partial : forall s, linked s -> forall m cb root,
  m_enter m = true \/ m_leave m = false \/ (forall tr, cb tr <> SKIP) ->
  forall l, children (s_heap s) root l ->
  exists tr b, treewalk m cb root s = Ok tr s /\ visits (s_heap s) m cb l [] tr b.
Proof. exact treewalk_ok. Qed.

(** The specification leaves no choice. *)
Theorem C20_visits_determined : forall h m cb l tr tr1 tr2 b1 b2,
  visits h m cb l tr tr1 b1 -> visits h m cb l tr tr2 b2 -> tr1 = tr2 /\ b1 = b2.
Proof. exact visits_unique. Qed.

(** A client that answers SKIP to a LEAVE call has the inside of the next
    sibling skipped. *)
Theorem C20_leave_only_refuted : exists k s g cb root ds j tr s', reach k s g /\ short k /\
  (forall w, cb w <> ABORT) /\ order (s_heap s) root (root :: ds) /\ In j ds /\
  treewalk (mkMask false true) cb root s = Ok tr s' /\ ~ In (LEAVE, j) tr.
Proof. exact leave_only. Qed.

Example C20_case : linked page /\
  calls_of (treewalk (mkMask true true) (fun tr => match tr with [_; _; _; _] => SKIP | _ => CONTINUE end) 1 page) =
    Some [(ENTER, 2); (LEAVE, 2); (ENTER, 3); (LEAVE, 3); (ENTER, 4); (ENTER, 6); (LEAVE, 6); (ENTER, 7); (LEAVE, 7); (ENTER, 5); (LEAVE, 5); (LEAVE, 4)] /\
  calls_of (treewalk (mkMask true false) (fun tr => match tr with [_; _; _] => SKIP | _ => CONTINUE end) 1 page) =
    Some [(ENTER, 2); (ENTER, 3); (ENTER, 4)].
Proof. exact page_walks. Qed.

(** ** C21: textContent *)
Theorem C21_text_content : forall s, linked s -> forall i n ds vs,
  s_heap s i = Some n -> n_type n = ELEMENT \/ n_type n = FRAGMENT \/ n_type n = ENTITY_REFERENCE \/ n_type n = ATTRIBUTE ->
  order (s_heap s) i (i :: ds) -> texts (s_heap s) ds vs ->
  get_text_content i s = Ok (joined vs) s.
Proof. exact containers_text. Qed.

Theorem C21_character_data : forall s, forall i n, s_heap s i = Some n -> In (n_type n) [TEXT; CDATA; COMMENT] ->
  get_text_content i s = Ok (n_value n) s.
Proof. exact text_content_data. Qed.

Theorem C21_documents : forall s, forall i n, s_heap s i = Some n -> In (n_type n) [DOCUMENT; DOCTYPE] ->
  get_text_content i s = Ok None s.
Proof. exact text_content_null. Qed.

Example C21_case : linked page /\ order (s_heap page) 1 [1; 2; 3; 4; 6; 7; 5] /\
  texts (s_heap page) [2; 3; 4; 6; 7; 5] [s_hi; s_yo] /\ joined [s_hi; s_yo] = Some (s_hi ++ s_yo).
Proof. exact page_text. Qed.

Definition walk_theorems :=
  (walk_states, C15_child_nodes, C16_by_tag_name_partial, C16_largest_index_refuted, C16_prefixed_names_refuted,
   C17_by_namespace_partial, C17_length_partial, C17_no_namespace_refuted, C18_collections_partial, C18_empty_root_refuted,
   C18_largest_index_refuted, C19_by_id_partial, C19_two_roots_refuted, C20_treewalk_partial, C20_visits_determined,
   C20_leave_only_refuted, C21_text_content, C21_character_data, C21_documents).
Print Assumptions walk_theorems.
