(** Model of the calls that edit the options of a select element and the rows of a
    table.  Both work through HTML collections made and dropped within the call; the
    references such a collection takes on its document and its root, and gives back,
    are left out.  Documents are HTML documents here: the element names they intern
    (html_document.c:165-170, include/dom/html/html_elements.h) are the constants
    below. *)
From Coq Require Import List Arith NArith ZArith Bool.
From Verif Require Import Base HeapModel StringModel WalkModel.
Import ListNotations.
Local Open Scope dom_scope.

Definition s_OPTION : bytes := [79; 80; 84; 73; 79; 78]%N.
Definition s_TR : bytes := [84; 82]%N.
Definition s_TD : bytes := [84; 68]%N.
Definition s_THEAD : bytes := [84; 72; 69; 65; 68]%N.
Definition s_TBODY : bytes := [84; 66; 79; 68; 89]%N.
Definition s_TFOOT : bytes := [84; 70; 79; 79; 84]%N.
Definition s_selected : bytes := [115; 101; 108; 101; 99; 116; 101; 100]%N.

(** C integer conversions. *)
Definition as_u32 (z : Z) : N := Z.to_N (z mod 4294967296)%Z.
Definition as_i32 (n : N) : Z :=
  let z := Z.of_N (u32 n) in if (z <? 2147483648)%Z then z else (z - 4294967296)%Z.

(** The document of an element; the collection asserts there is one,
    html_collection.c:61. *)
Definition html_doc (e : id) : M st id :=
  n <- load e ;; match n_owner n with Some d => load d ;;; ret d | None => stuck AssertFail end.

(** The test of a collection: is_option, html_select_element.c:731-741 compares with
    dom_string_isequal; table_rows_callback, html_table_element.c:381-390, and the
    like with dom_string_caseless_isequal. *)
Definition tagged_as (eq : option bytes -> option bytes -> bool) (name : bytes) (s : st) (i : id) : bool :=
  match s_heap s i with Some n => eq (n_name n) (Some name) | None => false end.
Definition count_in eq name (e : id) : M st N := html_doc e ;;; (fun s => col_length (tagged_as eq name s) e s).
Definition item_in eq name (e : id) (index : N) : M st (option id) :=
  html_doc e ;;; (fun s => col_item (tagged_as eq name s) e index s).

(** ** Boolean properties *)

(** dom_html_element_get_bool_property, html_element.c:371-399, without the reference
    it takes on the attribute and gives back. *)
Definition has_property (name : bytes) (i : id) : M st bool :=
  n <- load i ;; a <- find_attr name (n_attrs n) ;; ret (negb (is_none a)).
(** dom_html_element_set_bool_property with [has = true], html_element.c:410-456. *)
Definition set_property (name : bytes) (i : id) : M st unit :=
  b <- has_property name i ;;
  if (b : bool) then ret tt
  else
    d <- html_doc i ;;
    a <- create_node (Some d) ATTRIBUTE (Some name) None None None ;;
    r <- try (set_attribute_node i a) ;;
    node_unref a ;;;
    match r with inl _ => ret tt | inr x => raise x end.

(** ** Select *)

(** dom_html_select_element_get_length, html_select_element.c:423-438. *)
Definition select_length (e : id) : M st N := count_in isequal s_OPTION e.

(** dom_html_select_element_get_selected_index, html_select_element.c:206-255; the
    loop over [idx]. *)
Fixpoint selected_from (left : nat) (e : id) (idx : N) : M st Z :=
  match left with
  | O => ret (-1)%Z
  | S l =>
      o <- item_in isequal s_OPTION e idx ;;
      x <- deref o ;;
      b <- has_property s_selected x ;;
      node_unref x ;;;
      if (b : bool) then ret (as_i32 idx) else selected_from l e (u32 (idx + 1))
  end.
Definition selected_index (e : id) : M st Z :=
  len <- select_length e ;; selected_from (N.to_nat len) e 0%N.

(** dom_html_select_element_set_selected_index, html_select_element.c:264-294. *)
Definition set_selected_index (e : id) (index : Z) : M st unit :=
  o <- item_in isequal s_OPTION e (as_u32 index) ;;
  x <- deref o ;;
  r <- try (set_property s_selected x) ;;
  node_unref x ;;;
  match r with inl _ => ret tt | inr y => raise y end.

(** dom__html_select_element_add, html_select_element.c:637-648. *)
Definition select_add (e o : id) (before : option id) : M st unit :=
  x <- insert_before e o before ;; node_unref x.

(** dom_html_select_element_remove, html_select_element.c:650-685. *)
Definition select_remove (e : id) (index : Z) : M st unit :=
  len <- select_length e ;;
  if (index <? 0)%Z || (as_i32 len <=? index)%Z then ret tt
  else
    o <- item_in isequal s_OPTION e (as_u32 index) ;;
    x <- deref o ;;
    n <- load x ;;
    p <- deref (n_parent n) ;;
    r <- try (remove_child p x) ;;
    match r with
    | inl y => node_unref y ;;; node_unref x
    | inr y => node_unref x ;;; raise y
    end.

(** ** Table sections *)

(** dom_html_table_section_element_get_rows and the length of what it gives,
    html_tablesection_element.c:214-221. *)
Definition rows_length (e : id) : M st N := count_in caseless_isequal s_TR e.

(** dom_html_table_section_element_insert_row, html_tablesection_element.c:230-288, for
    rows, and dom_html_table_row_element_insert_cell, html_tablerow_element.c:352-408,
    for cells.  The latter gives back its two references in the other order. *)
Definition insert_tagged (tag : bytes) (e : id) (index : Z) : M st id :=
  d <- html_doc e ;;
  ne <- load e ;;
  row <- create_node (Some d) ELEMENT (Some tag) None (n_ns ne) (n_prefix ne) ;;
  len <- count_in caseless_isequal tag e ;;
  if (index <? -1)%Z || (as_i32 len <? index)%Z then node_unref row ;;; raise INDEX_SIZE_ERR
  else
    r <- (if (index =? -1)%Z || (index =? as_i32 len)%Z then try (append_child e row)
          else
            o <- item_in caseless_isequal tag e (as_u32 index) ;;
            r <- try (insert_before e row o) ;;
            match o with Some x => node_unref x | None => ret tt end ;;;
            ret r) ;;
    node_unref row ;;;
    match r with inl x => ret x | inr y => raise y end.

(** dom_html_table_section_element_delete_row, html_tablesection_element.c:297-339, and
    dom_html_table_row_element_delete_cell, html_tablerow_element.c:417-462, whose test
    of the index says the same. *)
Definition delete_tagged (tag : bytes) (e : id) (index : Z) : M st unit :=
  len <- count_in caseless_isequal tag e ;;
  if (index <? -1)%Z || (as_i32 len <=? index)%Z || ((index =? -1)%Z && (len =? 0)%N) then raise INDEX_SIZE_ERR
  else
    o <- item_in caseless_isequal tag e (if (index =? -1)%Z then u32 (len + two32 - 1) else as_u32 index) ;;
    x <- deref o ;;
    r <- try (remove_child e x) ;;
    match r with
    | inl y => node_unref y ;;; node_unref x
    | inr y => node_unref x ;;; raise y
    end.

Definition section_insert_row : id -> Z -> M st id := insert_tagged s_TR.
Definition section_delete_row : id -> Z -> M st unit := delete_tagged s_TR.
Definition row_insert_cell : id -> Z -> M st id := insert_tagged s_TD.
Definition row_delete_cell : id -> Z -> M st unit := delete_tagged s_TD.

(** ** Tables *)

(** The loop of dom_html_table_element_get_t_head, html_table_element.c:264-285, and
    of get_t_foot: the first child of that name. *)
Fixpoint child_named (fuel : nat) (name : bytes) (c : option id) : M st (option id) :=
  match c with
  | None => ret None
  | Some i =>
      match fuel with
      | O => stuck OutOfFuel
      | S f =>
          n <- load i ;;
          if element_node n && caseless_isequal (Some name) (n_name n) then ret (Some i) else child_named f name (n_next n)
      end
  end.
Definition table_part (name : bytes) (e : id) : M st (option id) :=
  html_doc e ;;;
  n <- load e ;;
  o <- with_fuel (fun f => child_named f name (n_first n)) ;;
  ref_opt o.

(** dom_html_table_element_create_t_body, html_table_element.c:678-728. *)
Definition table_body (e : id) : M st id :=
  len <- count_in caseless_isequal s_TBODY e ;;
  if (len =? 0)%N then
    d <- html_doc e ;;
    ne <- load e ;;
    b <- create_node (Some d) ELEMENT (Some s_TBODY) None (n_ns ne) (n_prefix ne) ;;
    x <- append_child e b ;;
    node_unref b ;;;
    ret x
  else
    o <- item_in caseless_isequal s_TBODY e 0%N ;;
    deref o.

(** What insert_row and delete_row do with one section, html_table_element.c:819-832:
    [take] says whether the section is the one, from its length and the rows before. *)
Definition in_window (insert : bool) (len before size : N) (index : Z) : bool :=
  (as_u32 index <? u32 (before + size))%N || (insert && (u32 (before + size) =? len)%N).

(** The loop over the bodies, html_table_element.c:834-867 and 967-993. *)
Fixpoint bodies {A} (fuel : nat) (insert : bool) (act : id -> Z -> M st A) (len before : N) (index : Z) (c : option id) : M st (A + N) :=
  match c with
  | None => ret (inr before)
  | Some i =>
      match fuel with
      | O => stuck OutOfFuel
      | S f =>
          n <- load i ;;
          if element_node n && caseless_isequal (Some s_TBODY) (n_name n) then
            size <- rows_length i ;;
            if in_window insert len before size index
            then x <- act i (as_i32 (as_u32 (index - Z.of_N before))) ;; ret (inl x)
            else bodies f insert act len (u32 (before + size)) index (n_next n)
          else bodies f insert act len before index (n_next n)
      end
  end.

(** The search for the section, html_table_element.c:802-897 and 941-1017.  A missing
    head or foot is a NULL pointer, which get_rows reads. *)
Definition in_section {A} (insert : bool) (act : id -> Z -> M st A) (e : id) (len : N) (index : Z) : M st A :=
  o <- table_part s_THEAD e ;;
  t <- deref o ;;
  size <- rows_length t ;;
  if in_window insert len 0%N size index then
    r <- try (act t index) ;; node_unref t ;;; match r with inl x => ret x | inr y => raise y end
  else
    node_unref t ;;;
    n <- load e ;;
    w <- with_fuel (fun f => bodies f insert act len size index (n_first n)) ;;
    match w with
    | inl x => ret x
    | inr before =>
        o <- table_part s_TFOOT e ;;
        t <- deref o ;;
        size <- rows_length t ;;
        if in_window insert len before size index then
          r <- try (act t (as_i32 (as_u32 (index - Z.of_N before)))) ;; node_unref t ;;; match r with inl x => ret x | inr y => raise y end
        else (if insert then node_unref t else ret tt) ;;; raise INDEX_SIZE_ERR
    end.

(** dom_html_table_element_insert_row, html_table_element.c:737-901. *)
Definition table_insert_row (e : id) (index : Z) : M st id :=
  len <- rows_length e ;;
  if (as_i32 len <? index)%Z || (index <? -1)%Z then raise INDEX_SIZE_ERR
  else if (len =? 0)%N then
    d <- html_doc e ;;
    ne <- load e ;;
    row <- create_node (Some d) ELEMENT (Some s_TR) None (n_ns ne) (n_prefix ne) ;;
    b <- try (table_body e) ;;
    match b with
    | inr y => node_unref row ;;; raise y
    | inl b =>
        r <- try (append_child b row) ;;
        node_unref b ;;;
        node_unref row ;;;
        match r with inl x => ret x | inr y => raise y end
    end
  else in_section true section_insert_row e len (if (index =? -1)%Z then as_i32 len else index).

(** dom_html_table_element_delete_row, html_table_element.c:909-1019. *)
Definition table_delete_row (e : id) (index : Z) : M st unit :=
  len <- rows_length e ;;
  if (as_i32 len <=? index)%Z || (index <? -1)%Z || (len =? 0)%N then raise INDEX_SIZE_ERR
  else in_section false section_delete_row e len (if (index =? -1)%Z then as_i32 len - 1 else index)%Z.
