(** setTextContent, cloneNode, normalize and isEqualNode: src/core/node.c on the
    node heap.  Definitions only. *)
From Coq Require Import List Arith NArith Bool.
From Verif Require Import Base Utf8Model StringModel HeapModel CharDataModel.
Import ListNotations.
Local Open Scope dom_scope.

(** ** setTextContent *)

(** The name every text node gets, document.c:520-524 ("#text"). *)
Definition text_name : bytes := [35; 116; 101; 120; 116]%N.

(** _dom_document_create_text_node, document.c:516-530. *)
Definition create_text (d : id) (data : option bytes) : M st id :=
  create_node (Some d) TEXT (Some text_name) data None None.

(** The loop of _dom_node_set_text_content, node.c:1518-1530: [p = n; n = n->next],
    remove [p] and give up the reference removeChild answered. *)
Fixpoint clear_loop (fuel : nat) (node : id) (n : option id) : M st unit :=
  match n with
  | None => ret tt
  | Some p =>
      match fuel with
      | O => stuck OutOfFuel
      | S f =>
          np <- load p ;;
          r <- remove_child node p ;;
          node_unref r ;;;
          clear_loop f node (n_next np)
      end
  end.

(** _dom_node_set_text_content, node.c:1507-1549. *)
Definition set_text_content_plain (node : id) (content : option bytes) : M st unit :=
  n <- load node ;;
  with_fuel (fun f => clear_loop f node (n_first n)) ;;;
  n' <- load node ;;
  match n_owner n' with
  | None => stuck AssertFail
  | Some d =>
      t <- create_text d content ;;
      e <- try (append_child node t) ;;
      match e with
      | inr x => node_unref t ;;; raise x
      | inl r => node_unref t ;;; node_unref r
      end
  end.

(** The virtual function: characterdata.c:469-475 (sets the data), document.c:1266-1273
    and document_type.c:316-323 (no effect), node.c for all others (attr.h:94,
    element.h:177, node.h:235). *)
Definition set_text_content (node : id) (content : option bytes) : M st unit :=
  n <- load node ;;
  match n_type n with
  | TEXT | CDATA | COMMENT => set_data node content
  | DOCUMENT | DOCTYPE => ret tt
  | _ => set_text_content_plain node content
  end.

(** ** cloneNode *)

(** dom_node_copy and the copy constructors.  _dom_node_copy_internal,
    node.c:1900-1952: a fresh node with the fields of the old one and its owner, no
    parent, children or siblings, one reference, on the pending list.  Documents
    and doctypes refuse (document.c:1298-1305, document_type.c:336-342).
    _dom_pi_copy, pi.c:104-122, stores the address of the result pointer instead
    of the copy: the caller is left with a wild pointer. *)
Inductive copied := Fresh (i : id) | Wild.
Definition copy_node (i : id) : M st copied :=
  n <- load i ;;
  match n_type n with
  | DOCUMENT | DOCTYPE => raise NOT_SUPPORTED_ERR
  | _ =>
      match n_owner n with
      | None => stuck AssertFail
      | Some d =>
          j <- create_node (Some d) (n_type n) (n_name n) (n_value n) (n_ns n) (n_prefix n) ;;
          upd j (set_classes (n_classes n)) ;;;
          match n_type n with PI => ret Wild | _ => ret (Fresh j) end
      end
  end.

(** The loop over the children, node.c:1141-1160, and over the attributes,
    element.c:436-466 and 389-427.  (The C code clones the attributes before it
    fills in the element's own fields; nothing sees that order.) *)
Fixpoint clone_kids (clone : id -> M st copied) (fuel : nat) (n : id) (c : option id) : M st unit :=
  match c with
  | None => ret tt
  | Some ci =>
      match fuel with
      | O => stuck OutOfFuel
      | S f =>
          r <- try (clone ci) ;;
          match r with
          | inr x => node_unref n ;;; raise x
          | inl Wild => stuck BadCast
          | inl (Fresh ri) =>
              a <- try (append_child n ri) ;;
              match a with
              | inr x => node_unref n ;;; raise x
              | inl r2 =>
                  node_unref r2 ;;; node_unref r2 ;;;
                  nc <- load ci ;;
                  clone_kids clone f n (n_next nc)
              end
          end
      end
  end.

Fixpoint clone_attrs (clone : id -> M st copied) (e : id) (l : list id) : M st unit :=
  match l with
  | [] => ret tt
  | a :: k =>
      r <- clone a ;;
      match r with
      | Wild => stuck BadCast
      | Fresh b =>
          upd b (set_parent (Some e)) ;;;
          remove_pending b ;;;
          node_unref b ;;;
          ne <- load e ;;
          upd e (set_attrs (n_attrs ne ++ [b])) ;;;
          clone_attrs clone e k
      end
  end.

(** _dom_node_clone_node, node.c:1125-1174, and _dom_attr_clone_node, attr.c:669-688
    (attributes are always cloned deeply).  User data handlers are in
    UserDataModel. *)
Fixpoint clone_with (fuel : nat) (deep : bool) (i : id) : M st copied :=
  match fuel with
  | O => stuck OutOfFuel
  | S f =>
      n <- load i ;;
      match n_owner n with None => stuck AssertFail | Some _ => ret tt end ;;;
      c <- copy_node i ;;
      match c with
      | Wild => match n_first n with Some _ => if deep then stuck BadCast else ret Wild | None => ret Wild end
      | Fresh j =>
          clone_attrs (clone_with f true) j (n_attrs n) ;;;
          match deep || ntype_eqb (n_type n) ATTRIBUTE with
          | true => clone_kids (clone_with f true) f j (n_first n)
          | false => ret tt
          end ;;;
          ret (Fresh j)
      end
  end.
Definition clone_node (i : id) (deep : bool) : M st copied := with_fuel (fun f => clone_with f deep i).

(** ** normalize *)

(** _dom_merge_adjacent_text, node.c:2271-2302: the whole text of [n] is appended
    to [p]. *)
Definition merge_text (p n : id) : M st unit :=
  v <- get_whole_text n ;;
  append_data p v.

(** _dom_node_normalize, node.c:1186-1218. *)
Fixpoint normalize_loop (fuel : nat) (p : id) (n : option id) {struct fuel} : M st unit :=
  match n with
  | None => ret tt
  | Some ni =>
      match fuel with
      | O => stuck OutOfFuel
      | S f =>
          nn <- load ni ;;
          np <- load p ;;
          if ntype_eqb (n_type nn) TEXT && ntype_eqb (n_type np) TEXT then
            merge_text p ni ;;;
            detach ni ;;;
            node_unref ni ;;;
            np' <- load p ;;
            normalize_loop f p (n_next np')
          else
            when (negb (ntype_eqb (n_type nn) TEXT))
              (match n_first nn with
               | None => ret tt
               | Some q => nq <- load q ;; normalize_loop f q (n_next nq)
               end) ;;;
            nn' <- load ni ;;
            normalize_loop f ni (n_next nn')
      end
  end.
Definition normalize (i : id) : M st unit :=
  with_fuel (fun f =>
    n <- load i ;;
    match n_first n with
    | None => ret tt
    | Some q => nq <- load q ;; normalize_loop (f * f) q (n_next nq)
    end).

(** ** isEqualNode *)

(** _dom_node_is_equal, node.c:1654-1746.  Elements have an attribute map, which
    attributes_equal (element.c:2405-2412) compares by element; for all other
    nodes the map is NULL (node.c:675-682) and _dom_namednodemap_equal
    (namednodemap.c:312-318) dereferences it.  The lists of children are compared
    by their root (nodelist.c:453-457). *)
Definition string_eq (a b : option bytes) : bool := string_isequal (dstring a) (dstring b).
Definition is_equal (i j : id) : M st bool :=
  n <- load i ;;
  m <- load j ;;
  if negb (ntype_eqb (n_type n) (n_type m)) then ret false
  else
    match n_owner n, n_owner m with
    | Some _, Some _ => ret tt
    | _, _ => stuck AssertFail
    end ;;;
    if negb (string_eq (n_name n) (n_name m)) then ret false
    else if negb (string_eq (n_prefix n) (n_prefix m)) then ret false
    else if negb (string_eq (n_ns n) (n_ns m)) then ret false
    else if negb (string_eq (n_value n) (n_value m)) then ret false
    else if ntype_eqb (n_type n) ELEMENT then ret (Nat.eqb i j)
    else stuck NullDeref.
