(** importNode and adoptNode: src/core/document.c on the node heap. *)
From Coq Require Import List Arith NArith Bool.
From Verif Require Import Base HeapModel CharDataModel ContentModel.
Import ListNotations.
Local Open Scope dom_scope.

(** The loop over the children in dom_document_dup_node, document.c:1517-1539.
    [import] is the call of dom_document_import_node on one child.  Unlike the loop
    of cloneNode it drops one of the two references it holds on each copy. *)
Fixpoint dup_kids (import : id -> M st copied) (fuel : nat) (n : id) (c : option id) : M st unit :=
  match c with
  | None => ret tt
  | Some ci =>
      match fuel with
      | O => stuck OutOfFuel
      | S f =>
          r <- try (import ci) ;;
          match r with
          | inr x => node_unref n ;;; raise x
          | inl Wild => stuck BadCast
          | inl (Fresh ri) =>
              a <- try (append_child n ri) ;;
              match a with
              | inr x => node_unref n ;;; node_unref ri ;;; raise x
              | inl r2 =>
                  node_unref r2 ;;;
                  nc <- load ci ;;
                  dup_kids import f n (n_next nc)
              end
          end
      end
  end.

(** dom_document_dup_node, document.c:1479-1555.  [doc] is only used to dispatch
    the calls on the children.  Left out: the specified flag it sets on an attribute
    (AttrModel has the flag) and the user data handlers (UserDataModel).  The copy of
    an element comes with clones of its attributes, element.c:436-466. *)
Fixpoint dup_with (fuel : nat) (doc : id) (deep adopting : bool) (i : id) : M st copied :=
  match fuel with
  | O => stuck OutOfFuel
  | S f =>
      n <- load i ;;
      (if adopting then ro <- readonly i ;; check (negb ro) NO_MODIFICATION_ALLOWED_ERR else ret tt) ;;;
      check (negb (ntype_eqb (n_type n) DOCUMENT || ntype_eqb (n_type n) DOCTYPE)) NOT_SUPPORTED_ERR ;;;
      c <- copy_node i ;;
      check (negb (adopting && (ntype_eqb (n_type n) ENTITY || ntype_eqb (n_type n) NOTATION))) NOT_SUPPORTED_ERR ;;;
      let deep := (deep || ntype_eqb (n_type n) ATTRIBUTE) && negb (ntype_eqb (n_type n) ENTITY_REFERENCE) in
      match c with
      | Wild => match n_first n with Some _ => if deep then stuck BadCast else ret Wild | None => ret Wild end
      | Fresh j =>
          clone_attrs (clone_with f true) j (n_attrs n) ;;;
          (if deep then dup_kids (fun ci => load doc ;;; dup_with f doc deep false ci) f j (n_first n) else ret tt) ;;;
          ret (Fresh j)
      end
  end.

(** _dom_document_import_node, document.c:701-708. *)
Definition import_node (doc i : id) (deep : bool) : M st copied :=
  load doc ;;; with_fuel (fun f => dup_with f doc deep false i).

(** _dom_document_adopt_node, document.c:1125-1173; [None] is the NULL it answers
    for text, comments and so on. *)
Definition adopt_node (doc i : id) : M st (option copied) :=
  load doc ;;;
  n <- load i ;;
  match n_type n with
  | DOCUMENT | DOCTYPE | ENTITY_REFERENCE => raise NOT_SUPPORTED_ERR
  | ENTITY | NOTATION | PI | TEXT | CDATA | COMMENT => ret None
  | _ =>
      c <- with_fuel (fun f => dup_with f doc true true i) ;;
      n <- load i ;;
      match n_parent n with
      | None => ret (Some c)
      | Some p =>
          a <- try (remove_child p i) ;;
          match a with
          | inr x => match c with Fresh j => node_unref j ;;; raise x | Wild => stuck BadCast end
          | inl t => node_unref t ;;; ret (Some c)
          end
      end
  end.
