(** Model of the namespace lookups lookupPrefix, isDefaultNamespace and
    lookupNamespaceURI on the node heap. *)
From Coq Require Import List Arith NArith Bool.
From Verif Require Import Base HeapModel StringModel NameModel WalkModel.
Import ListNotations.
Local Open Scope dom_scope.

(** _dom_node_is_default_namespace, node.c:1598-1614; _dom_attr_is_default_namespace,
    attr.c:722-740, which takes a reference to the owner element (attr.c:544-556) and
    keeps it; _dom_element_is_default_namespace, element.c:1391-1427, where has_attribute
    and get_attribute make the same search twice. *)
Fixpoint default_from (fuel : nat) (i : id) (ns : option bytes) : M st bool :=
  match fuel with
  | O => stuck OutOfFuel
  | S f =>
      n <- load i ;;
      match n_type n with
      | ELEMENT =>
          if is_none (n_prefix n) then ret (isequal (n_ns n) ns)
          else
            a <- find_attr s_xmlns (n_attrs n) ;;
            match a with
            | Some a => v <- attr_value a ;; ret (isequal (Some v) ns)
            | None => match n_parent n with Some p => default_from f p ns | None => ret false end
            end
      | ATTRIBUTE => match n_parent n with Some p => node_ref p ;;; default_from f p ns | None => ret false end
      | _ => match n_parent n with Some p => default_from f p ns | None => ret false end
      end
  end.
Definition is_default_namespace (i : id) (ns : option bytes) : M st bool := with_fuel (fun f => default_from f i ns).

(** The search of _dom_element_attr_list_find_by_name in a namespace, element.c:198-221. *)
Fixpoint find_attr_ns (ns name : bytes) (l : list id) : M st (option id) :=
  match l with
  | [] => ret None
  | a :: r =>
      na <- load a ;;
      if negb (is_none (n_ns na)) && isequal (Some ns) (n_ns na) && isequal (Some name) (n_name na) then ret (Some a)
      else find_attr_ns ns name r
  end.
Definition find_attr_ns_opt (ns : bytes) (name : option bytes) (l : list id) : M st (option id) :=
  match name with Some k => find_attr_ns ns k l | None => ret None end.

(** _dom_node_lookup_namespace, node.c:1616-1631; _dom_attr_lookup_namespace,
    attr.c:742-758; _dom_element_lookup_namespace, element.c:1438-1475: the attribute
    is first sought in a namespace called "xmlns", then read from the namespace of the
    declarations. *)
Fixpoint namespace_from (fuel : nat) (i : id) (prefix : option bytes) : M st (option bytes) :=
  match fuel with
  | O => stuck OutOfFuel
  | S f =>
      n <- load i ;;
      match n_type n with
      | ELEMENT =>
          if negb (is_none (n_ns n)) && isequal (n_prefix n) prefix then ret (n_ns n)
          else
            has <- find_attr_ns_opt s_xmlns prefix (n_attrs n) ;;
            match has with
            | Some _ =>
                a <- find_attr_ns_opt XMLNS_NS prefix (n_attrs n) ;;
                match a with Some a => v <- attr_value a ;; ret (Some v) | None => ret None end
            | None =>
                a <- find_attr s_xmlns (n_attrs n) ;;
                match a with
                | Some a => v <- attr_value a ;; ret (Some v)
                | None => match n_parent n with Some p => namespace_from f p prefix | None => ret None end
                end
            end
      | ATTRIBUTE => match n_parent n with Some p => node_ref p ;;; namespace_from f p prefix | None => ret None end
      | _ => match n_parent n with Some p => namespace_from f p prefix | None => ret None end
      end
  end.
Definition lookup_namespace (i : id) (prefix : option bytes) : M st (option bytes) := with_fuel (fun f => namespace_from f i prefix).

(** _dom_node_lookup_prefix, node.c:1581-1596; _dom_attr_lookup_prefix, attr.c:703-720;
    _dom_element_lookup_prefix, element.c:1365-1381: it calls dom_attr_get_owner_element
    on the element.  The fifth function of the table of an attribute (attr.h:46) is in
    the place of dom_element_get_attribute_node in that of an element (element.h:35), which is
    called with the address of a pointer for the name and without a third argument. *)
Fixpoint prefix_from (fuel : nat) (i : id) (ns : option bytes) : M st (option bytes) :=
  match fuel with
  | O => stuck OutOfFuel
  | S f =>
      n <- load i ;;
      match n_type n with
      | ELEMENT => stuck BadCast
      | ATTRIBUTE => match n_parent n with Some p => node_ref p ;;; prefix_from f p ns | None => ret None end
      | _ => match n_parent n with Some p => prefix_from f p ns | None => ret None end
      end
  end.
Definition lookup_prefix (i : id) (ns : option bytes) : M st (option bytes) := with_fuel (fun f => prefix_from f i ns).
