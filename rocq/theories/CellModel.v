(** Model of the index of a table row: src/html/html_tablerow_element.c.  The cells of
    a row are in HtmlModel, with the rows of a section. *)
From Coq Require Import List Arith NArith ZArith Bool.
From Verif Require Import Base HeapModel StringModel WalkModel HtmlModel.
Import ListNotations.
Local Open Scope dom_scope.

Definition s_TABLE : bytes := [84; 65; 66; 76; 69]%N.
Definition is_named (n : node) (name : bytes) : bool := caseless_isequal (n_name n) (Some name).

(** The loop over the siblings before the row, html_tablerow_element.c:215-222 and
    299-306.  The count is an int32_t in the latter. *)
Fixpoint count_rows (fuel : nat) (row : id) (c : option id) (count : N) : M st N :=
  if oid_eqb c (Some row) then ret count
  else
    match fuel with
    | O => stuck OutOfFuel
    | S f =>
        i <- deref c ;;
        n <- load i ;;
        count_rows f row (n_next n) (if element_node n && is_named n s_TR then u32 (count + 1) else count)
    end.

(** dom_html_table_row_element_get_section_row_index,
    html_tablerow_element.c:293-309.  The document is read once for each element the
    loop passes, here once before it. *)
Definition section_row_index (row : id) : M st Z :=
  n <- load row ;;
  p <- deref (n_parent n) ;;
  html_doc row ;;;
  np <- load p ;;
  c <- with_fuel (fun f => count_rows f row (n_first np) 0) ;;
  ret (as_i32 c).

(** The loop over the bodies before the section, html_tablerow_element.c:259-280. *)
Fixpoint count_bodies (fuel : nat) (stop : id) (c : option id) (count : N) : M st N :=
  match c with
  | None => ret count
  | Some i =>
      if Nat.eqb i stop then ret count
      else
        match fuel with
        | O => stuck OutOfFuel
        | S f =>
            n <- load i ;;
            if is_named n s_TBODY
            then len <- rows_length i ;; count_bodies f stop (n_next n) (u32 (count + len))
            else count_bodies f stop (n_next n) count
        end
  end.

(** dom_html_table_row_element_get_row_index, html_tablerow_element.c:202-285. *)
Definition row_index (row : id) : M st Z :=
  n <- load row ;;
  p <- deref (n_parent n) ;;
  html_doc row ;;;
  np <- load p ;;
  c <- with_fuel (fun f => count_rows f row (n_first np) 0) ;;
  q <- deref (n_parent np) ;;
  nq <- load q ;;
  if is_named nq s_TABLE && is_named np s_THEAD then ret (as_i32 c)
  else if is_named nq s_TABLE && (is_named np s_TBODY || is_named np s_TFOOT) then
    o <- table_part s_THEAD q ;;
    c <- match o with
         | Some t => node_unref t ;;; len <- rows_length t ;; ret (u32 (c + len))
         | None => ret c
         end ;;
    nq <- load q ;;
    c <- with_fuel (fun f => count_bodies f p (n_first nq) c) ;;
    ret (as_i32 c)
  else raise HIERARCHY_REQUEST_ERR.
