(** Model of the caption, the head and the foot of a table.
    Modelled: html_table_element.c:200-374 and 445-669. *)
From Coq Require Import List Arith NArith ZArith Bool.
From Verif Require Import Base HeapModel StringModel WalkModel HtmlModel.
Import ListNotations.
Local Open Scope dom_scope.

(** DOM_HTML_ELEMENT_TYPE_CAPTION in the upper case names of the document,
    html_document_strings.h. *)
Definition s_CAPTION : bytes := [67; 65; 80; 84; 73; 79; 78]%N.

(** dom_html_table_element_get_caption, html_table_element.c:205-225, get_t_head,
    :264-283, and get_t_foot, :322-342. *)
Definition get_caption : id -> M st (option id) := table_part s_CAPTION.
Definition get_head : id -> M st (option id) := table_part s_THEAD.
Definition get_foot : id -> M st (option id) := table_part s_TFOOT.

(** dom_html_table_element_delete_caption, html_table_element.c:497-516, delete_t_foot,
    :573-592, and delete_t_head, :650-669. *)
Definition delete_part (name : bytes) (e : id) : M st unit :=
  o <- table_part name e ;;
  match o with
  | None => ret tt
  | Some x =>
      r <- try (remove_child e x) ;;
      match r with
      | inl y => node_unref y ;;; node_unref x
      | inr y => node_unref x ;;; raise y
      end
  end.
Definition delete_caption : id -> M st unit := delete_part s_CAPTION.
Definition delete_head : id -> M st unit := delete_part s_THEAD.
Definition delete_foot : id -> M st unit := delete_part s_TFOOT.

(** dom_html_table_element_create_caption, html_table_element.c:452-489, create_t_foot,
    :525-565, and create_t_head, :601-642.  The last keeps its new element when the
    table refuses it ([keeps]). *)
Definition create_part (keeps : bool) (name : bytes) (e : id) : M st id :=
  o <- table_part name e ;;
  match o with
  | Some x => ret x
  | None =>
      d <- html_doc e ;;
      ne <- load e ;;
      x <- create_node (Some d) ELEMENT (Some name) None (n_ns ne) (n_prefix ne) ;;
      r <- try (append_child e x) ;;
      match r with
      | inl y => node_unref x ;;; ret y
      | inr y => (if keeps then ret tt else node_unref x) ;;; raise y
      end
  end.
Definition create_caption : id -> M st id := create_part false s_CAPTION.
Definition create_head : id -> M st id := create_part true s_THEAD.
Definition create_foot : id -> M st id := create_part false s_TFOOT.

(** dom_html_table_element_set_caption, html_table_element.c:233-257, set_t_head,
    :291-315, and set_t_foot, :349-374.  [want] is the name the new part must have.
    The node that dom_node_append_child hands back is left in a local variable. *)
Definition set_part (want name : bytes) (e : id) (c : option id) : M st unit :=
  html_doc e ;;;
  match c with
  | None => raise HIERARCHY_REQUEST_ERR
  | Some c =>
      n <- load c ;;
      if negb (caseless_isequal (Some want) (n_name n)) then raise HIERARCHY_REQUEST_ERR
      else delete_part name e ;;; append_child e c ;;; ret tt
  end.
Definition set_caption : id -> option id -> M st unit := set_part s_CAPTION s_CAPTION.
Definition set_head : id -> option id -> M st unit := set_part s_CAPTION s_THEAD.
Definition set_foot : id -> option id -> M st unit := set_part s_TFOOT s_TFOOT.
