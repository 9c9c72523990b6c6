(** The node heap: src/core/node.c (tree editing, pending lists, reference
    counts, destruction) with the parts of document.c, element.c, attr.c and
    doc_fragment.c that take part in node lifetime.  Definitions only. *)
From Coq Require Import List Arith NArith Bool.
From Verif Require Import Base.
Import ListNotations.
Local Open Scope dom_scope.

(** Node identities stand for pointers.  They are never reused, so a pointer to
    freed memory is an identity the heap no longer maps. *)
Definition id : Type := nat.

(** dom_node_type, include/dom/core/node.h:56-72. *)
Inductive ntype : Type :=
| ELEMENT | ATTRIBUTE | TEXT | CDATA | ENTITY_REFERENCE | ENTITY | PI | COMMENT
| DOCUMENT | DOCTYPE | FRAGMENT | NOTATION.

Definition ntype_eqb (a b : ntype) : bool :=
  match a, b with
  | ELEMENT, ELEMENT | ATTRIBUTE, ATTRIBUTE | TEXT, TEXT | CDATA, CDATA
  | ENTITY_REFERENCE, ENTITY_REFERENCE | ENTITY, ENTITY | PI, PI | COMMENT, COMMENT
  | DOCUMENT, DOCUMENT | DOCTYPE, DOCTYPE | FRAGMENT, FRAGMENT | NOTATION, NOTATION => true
  | _, _ => false
  end.

(** struct dom_node_internal, src/core/node.h:54-81, merged with the fields of
    its subclasses that matter here:
    - [n_attrs]: element->attributes (element.h:29-42, element.c:53-60), the ring of attribute
      list nodes as the list of its attribute nodes from the head on (each list
      node's name/namespace are those of its attribute);
    - [n_classes]: element->classes;
    - [n_pend]: the document's pending_nodes list (document.h:43-78);
    - [n_pending]: whether the node's own pending_list entry is linked
      ("pending_list.prev != &pending_list");
    - [n_ro]: attr->read_only.
    User data, event listeners, embedder data and the fragment host pointer are
    left out (see the UserData and Event models). *)
Record node : Type := mkNode {
  n_type : ntype;
  n_name : option bytes;
  n_value : option bytes;
  n_ns : option bytes;
  n_prefix : option bytes;
  n_parent : option id;
  n_first : option id;
  n_last : option id;
  n_prev : option id;
  n_next : option id;
  n_owner : option id;
  n_ref : N;
  n_pending : bool;
  n_attrs : list id;
  n_classes : list bytes;
  n_pend : list id;
  n_ro : bool
}.

Definition set_name (v : option bytes) (n : node) : node :=
  mkNode (n_type n) v (n_value n) (n_ns n) (n_prefix n) (n_parent n) (n_first n) (n_last n) (n_prev n) (n_next n) (n_owner n) (n_ref n) (n_pending n) (n_attrs n) (n_classes n) (n_pend n) (n_ro n).
Definition set_value (v : option bytes) (n : node) : node :=
  mkNode (n_type n) (n_name n) v (n_ns n) (n_prefix n) (n_parent n) (n_first n) (n_last n) (n_prev n) (n_next n) (n_owner n) (n_ref n) (n_pending n) (n_attrs n) (n_classes n) (n_pend n) (n_ro n).
Definition set_ns (v : option bytes) (n : node) : node :=
  mkNode (n_type n) (n_name n) (n_value n) v (n_prefix n) (n_parent n) (n_first n) (n_last n) (n_prev n) (n_next n) (n_owner n) (n_ref n) (n_pending n) (n_attrs n) (n_classes n) (n_pend n) (n_ro n).
Definition set_prefix (v : option bytes) (n : node) : node :=
  mkNode (n_type n) (n_name n) (n_value n) (n_ns n) v (n_parent n) (n_first n) (n_last n) (n_prev n) (n_next n) (n_owner n) (n_ref n) (n_pending n) (n_attrs n) (n_classes n) (n_pend n) (n_ro n).
Definition set_parent (v : option id) (n : node) : node :=
  mkNode (n_type n) (n_name n) (n_value n) (n_ns n) (n_prefix n) v (n_first n) (n_last n) (n_prev n) (n_next n) (n_owner n) (n_ref n) (n_pending n) (n_attrs n) (n_classes n) (n_pend n) (n_ro n).
Definition set_first (v : option id) (n : node) : node :=
  mkNode (n_type n) (n_name n) (n_value n) (n_ns n) (n_prefix n) (n_parent n) v (n_last n) (n_prev n) (n_next n) (n_owner n) (n_ref n) (n_pending n) (n_attrs n) (n_classes n) (n_pend n) (n_ro n).
Definition set_last (v : option id) (n : node) : node :=
  mkNode (n_type n) (n_name n) (n_value n) (n_ns n) (n_prefix n) (n_parent n) (n_first n) v (n_prev n) (n_next n) (n_owner n) (n_ref n) (n_pending n) (n_attrs n) (n_classes n) (n_pend n) (n_ro n).
Definition set_prev (v : option id) (n : node) : node :=
  mkNode (n_type n) (n_name n) (n_value n) (n_ns n) (n_prefix n) (n_parent n) (n_first n) (n_last n) v (n_next n) (n_owner n) (n_ref n) (n_pending n) (n_attrs n) (n_classes n) (n_pend n) (n_ro n).
Definition set_next (v : option id) (n : node) : node :=
  mkNode (n_type n) (n_name n) (n_value n) (n_ns n) (n_prefix n) (n_parent n) (n_first n) (n_last n) (n_prev n) v (n_owner n) (n_ref n) (n_pending n) (n_attrs n) (n_classes n) (n_pend n) (n_ro n).
Definition set_owner (v : option id) (n : node) : node :=
  mkNode (n_type n) (n_name n) (n_value n) (n_ns n) (n_prefix n) (n_parent n) (n_first n) (n_last n) (n_prev n) (n_next n) v (n_ref n) (n_pending n) (n_attrs n) (n_classes n) (n_pend n) (n_ro n).
Definition set_ref (v : N) (n : node) : node :=
  mkNode (n_type n) (n_name n) (n_value n) (n_ns n) (n_prefix n) (n_parent n) (n_first n) (n_last n) (n_prev n) (n_next n) (n_owner n) v (n_pending n) (n_attrs n) (n_classes n) (n_pend n) (n_ro n).
Definition set_pending (v : bool) (n : node) : node :=
  mkNode (n_type n) (n_name n) (n_value n) (n_ns n) (n_prefix n) (n_parent n) (n_first n) (n_last n) (n_prev n) (n_next n) (n_owner n) (n_ref n) v (n_attrs n) (n_classes n) (n_pend n) (n_ro n).
Definition set_attrs (v : list id) (n : node) : node :=
  mkNode (n_type n) (n_name n) (n_value n) (n_ns n) (n_prefix n) (n_parent n) (n_first n) (n_last n) (n_prev n) (n_next n) (n_owner n) (n_ref n) (n_pending n) v (n_classes n) (n_pend n) (n_ro n).
Definition set_classes (v : list bytes) (n : node) : node :=
  mkNode (n_type n) (n_name n) (n_value n) (n_ns n) (n_prefix n) (n_parent n) (n_first n) (n_last n) (n_prev n) (n_next n) (n_owner n) (n_ref n) (n_pending n) (n_attrs n) v (n_pend n) (n_ro n).
Definition set_pend (v : list id) (n : node) : node :=
  mkNode (n_type n) (n_name n) (n_value n) (n_ns n) (n_prefix n) (n_parent n) (n_first n) (n_last n) (n_prev n) (n_next n) (n_owner n) (n_ref n) (n_pending n) (n_attrs n) (n_classes n) v (n_ro n).
Definition set_ro (v : bool) (n : node) : node :=
  mkNode (n_type n) (n_name n) (n_value n) (n_ns n) (n_prefix n) (n_parent n) (n_first n) (n_last n) (n_prev n) (n_next n) (n_owner n) (n_ref n) (n_pending n) (n_attrs n) (n_classes n) (n_pend n) v.

(** Mutation events fired by the tree operations (src/events/dispatch.c).  The
    model records them instead of running listeners: it describes documents
    whose mutation listeners do not edit the tree. *)
Inductive event : Type :=
| EvInserted (target related : id)       (** DOMNodeInserted, dispatch.c:26-64 *)
| EvRemoved (target related : id)        (** DOMNodeRemoved *)
| EvInsertedDoc (target : id)            (** DOMNodeInsertedIntoDocument, dispatch.c:76-112 *)
| EvRemovedDoc (target : id)             (** DOMNodeRemovedFromDocument *)
| EvSubtree (target : id)                (** DOMSubtreeModified, dispatch.c:216-246 *)
| EvAttr (target : id) (attr : option bytes) (prev new : option bytes) (** DOMAttrModified, dispatch.c:128-160 *)
| EvData (target : id) (prev new : option bytes). (** DOMCharacterDataModified, dispatch.c:176-206 *)

Definition heap : Type := id -> option node.

Record st : Type := mkSt { s_heap : heap; s_nxt : id; s_log : list event }.

Definition empty_st : st := mkSt (fun _ => None) 0 [].

Definition hupd (h : heap) (i : id) (v : option node) : heap :=
  fun j => if Nat.eqb j i then v else h j.
Definition hmod (h : heap) (i : id) (f : node -> node) : heap :=
  fun j => if Nat.eqb j i then option_map f (h j) else h j.

(** Memory access through a non-NULL pointer. *)
Definition load (i : id) : M st node :=
  fun s => match s_heap s i with Some n => Ok n s | None => Bad UseAfterFree end.
Definition upd (i : id) (f : node -> node) : M st unit :=
  fun s => match s_heap s i with
           | Some _ => Ok tt (mkSt (hmod (s_heap s) i f) (s_nxt s) (s_log s))
           | None => Bad UseAfterFree
           end.
(** A pointer about to be dereferenced. *)
Definition deref (p : option id) : M st id :=
  match p with Some i => ret i | None => stuck NullDeref end.
Definition check (b : bool) (e : exn) : M st unit := if b then ret tt else raise e.
Definition assert_ (b : bool) : M st unit := if b then ret tt else stuck AssertFail.
(** malloc (never fails in the model) and free. *)
Definition alloc (n : node) : M st id :=
  fun s => Ok (s_nxt s) (mkSt (hupd (s_heap s) (s_nxt s) (Some n)) (S (s_nxt s)) (s_log s)).
Definition free (i : id) : M st unit :=
  fun s => match s_heap s i with
           | Some _ => Ok tt (mkSt (hupd (s_heap s) i None) (s_nxt s) (s_log s))
           | None => Bad UseAfterFree
           end.
Definition fire (e : event) : M st unit :=
  fun s => Ok tt (mkSt (s_heap s) (s_nxt s) (s_log s ++ [e])).
Definition when (b : bool) (m : M st unit) : M st unit := if b then m else ret tt.

Definition oid_eqb : option id -> option id -> bool := opt_eqb Nat.eqb.
Definition is_none {A} (o : option A) : bool := match o with None => true | Some _ => false end.
Definition remove_id (i : id) (l : list id) : list id := filter (fun j => negb (Nat.eqb j i)) l.
Definition mem_id (i : id) (l : list id) : bool := existsb (Nat.eqb i) l.

(** Enough fuel for any loop over the nodes of a heap. *)
Definition fuel_of (s : st) : nat := 2 * s_nxt s + 8.
Definition with_fuel {A} (m : nat -> M st A) : M st A := fun s => m (fuel_of s) s.

(** list_append(&d->pending_nodes, &i->pending_list), src/utils/list.h:40-46. *)
Definition pend_append (d i : id) : M st unit :=
  upd d (fun n => set_pend (n_pend n ++ [i]) n) ;;;
  upd i (set_pending true).
(** list_del(&i->pending_list), src/utils/list.h:53-60, the ring being that of [d]. *)
Definition pend_del (d i : id) : M st unit :=
  upd d (fun n => set_pend (remove_id i (n_pend n)) n) ;;;
  upd i (set_pending false).

(** _dom_node_mark_pending, node.c:2328-2342. *)
Definition mark_pending (i : id) : M st unit :=
  n <- load i ;;
  match n_owner n with
  | None => ret tt
  | Some d => assert_ (negb (n_pending n)) ;;; pend_append d i
  end.

(** _dom_node_remove_pending, node.c:2350-2360. *)
Definition remove_pending (i : id) : M st unit :=
  n <- load i ;;
  match n_owner n with
  | None => ret tt
  | Some d => assert_ (n_pending n) ;;; pend_del d i
  end.

(** dom_node_ref, include/dom/core/node.h:178-184: ++refcnt on a uint32_t. *)
Definition node_ref (i : id) : M st unit := upd i (fun n => set_ref (u32 (n_ref n + 1)) n).

(** The loop of node.c:2055-2059. *)
Fixpoint ro_loop (fuel : nat) (p : option id) : M st bool :=
  match p with
  | None => ret false
  | Some i =>
      match fuel with
      | O => stuck OutOfFuel
      | S f =>
          n <- load i ;;
          if ntype_eqb (n_type n) ENTITY || ntype_eqb (n_type n) ENTITY_REFERENCE
          then ret true else ro_loop f (n_parent n)
      end
  end.

(** _dom_node_readonly, node.c:2040-2063; _dom_attr_readonly, attr.c:837-840. *)
Definition readonly (i : id) : M st bool :=
  n <- load i ;;
  if ntype_eqb (n_type n) DOCTYPE || ntype_eqb (n_type n) NOTATION then ret true
  else if ntype_eqb (n_type n) ATTRIBUTE then ret (n_ro n)
  else with_fuel (fun f => ro_loop f (Some i)).

(** The loops of node.c:772-775 and 914-917: does [x] occur on the parent chain from [p]? *)
Fixpoint anc_loop (fuel : nat) (x : id) (p : option id) : M st bool :=
  match p with
  | None => ret false
  | Some i =>
      match fuel with
      | O => stuck OutOfFuel
      | S f => if Nat.eqb i x then ret true else n <- load i ;; anc_loop f x (n_parent n)
      end
  end.

(** The sibling loops of node.c:2011-2015 and 2022-2026: is there a node of type [t]? *)
Fixpoint has_type_loop (fuel : nat) (t : ntype) (p : option id) : M st bool :=
  match p with
  | None => ret false
  | Some i =>
      match fuel with
      | O => stuck OutOfFuel
      | S f =>
          n <- load i ;;
          r <- has_type_loop f t (n_next n) ;;
          ret (ntype_eqb (n_type n) t || r)
      end
  end.

(** The type table of _dom_node_permitted_child, node.c:1973-2005. *)
Definition type_permitted (p c : ntype) : bool :=
  match p with
  | ELEMENT | ENTITY_REFERENCE | ENTITY | FRAGMENT =>
      match c with ELEMENT | TEXT | COMMENT | PI | CDATA | ENTITY_REFERENCE => true | _ => false end
  | ATTRIBUTE => match c with TEXT | ENTITY_REFERENCE => true | _ => false end
  | DOCUMENT => match c with ELEMENT | PI | COMMENT | DOCTYPE => true | _ => false end
  | TEXT | CDATA | PI | COMMENT | DOCTYPE | NOTATION => false
  end.

(** _dom_node_permitted_child, node.c:1966-2033. *)
Definition permitted_child (p c : id) : M st bool :=
  np <- load p ;;
  nc <- load c ;;
  let valid := type_permitted (n_type np) (n_type nc) in
  if ntype_eqb (n_type np) DOCUMENT &&
     (ntype_eqb (n_type nc) ELEMENT || ntype_eqb (n_type nc) DOCTYPE)
  then found <- with_fuel (fun f => has_type_loop f (n_type nc) (n_first np)) ;; ret (valid && negb found)
  else ret valid.

(** Whether an insertion or a removal is announced. *)
Inductive mutation : Type := ADDITION | REMOVAL.
Definition ev_node (m : mutation) (t r : id) : event :=
  match m with ADDITION => EvInserted t r | REMOVAL => EvRemoved t r end.
Definition ev_doc (m : mutation) (t : id) : event :=
  match m with ADDITION => EvInsertedDoc t | REMOVAL => EvRemovedDoc t end.

(** node.c:2679-2682: climb while the current node is the last child and its parent is not [top]. *)
Fixpoint climb (fuel : nat) (top cur : id) (parent : option id) : M st id :=
  match fuel with
  | O => stuck OutOfFuel
  | S f =>
      if oid_eqb parent (Some top) then ret cur
      else
        p <- deref parent ;;
        np <- load p ;;
        if oid_eqb (n_last np) (Some cur) then climb f top p (n_parent np) else ret cur
  end.

(** The loop of node.c:2665-2686, firing [ev] at each proper descendant of [top]. *)
Fixpoint change_walk (fuel : nat) (ev : id -> event) (top : id) (p : option id) : M st unit :=
  match p with
  | None => ret tt
  | Some i =>
      match fuel with
      | O => stuck OutOfFuel
      | S f =>
          fire (ev i) ;;;
          n <- load i ;;
          match n_first n, n_next n with
          | Some c, _ => change_walk f ev top (Some c)
          | None, Some x => change_walk f ev top (Some x)
          | None, None =>
              j <- with_fuel (fun g => climb g top i (n_parent n)) ;;
              nj <- load j ;;
              change_walk f ev top (n_next nj)
          end
      end
  end.

(** _dom_node_dispatch_node_change_event, node.c:2651-2689. [doc] is read for
    its interned event names. *)
Definition change_event (doc : option id) (i : id) (related : option id) (m : mutation) : M st unit :=
  d <- deref doc ;;
  load d ;;;
  match related with
  | Some r => fire (ev_node m i r)
  | None => ret tt
  end ;;;
  n <- load i ;;
  with_fuel (fun f => change_walk f (ev_doc m) i (n_first n)).

(** _dom_dispatch_subtree_modified_event. *)
Definition subtree_event (doc : option id) (i : id) : M st unit :=
  d <- deref doc ;; load d ;;; fire (EvSubtree i).

(** The loop of _dom_node_attach_range, node.c:2134-2147 (the script-added
    callback, set by the embedder, is left out). *)
Fixpoint attach_loop (fuel : nat) (parent last : id) (p : option id) : M st unit :=
  nl <- load last ;;
  if oid_eqb p (n_next nl) then ret tt
  else
    match fuel with
    | O => stuck OutOfFuel
    | S f =>
        i <- deref p ;;
        upd i (set_parent (Some parent)) ;;;
        np <- load parent ;;
        change_event (n_owner np) i (Some parent) ADDITION ;;;
        n <- load i ;;
        attach_loop f parent last (n_next n)
    end.

(** _dom_node_attach_range, node.c:2107-2156. *)
Definition attach_range (first last parent : id) (previous next : option id) : M st unit :=
  upd first (set_prev previous) ;;;
  upd last (set_next next) ;;;
  match previous with
  | Some p => upd p (set_next (Some first))
  | None => upd parent (set_first (Some first))
  end ;;;
  match next with
  | Some x => upd x (set_prev (Some last))
  | None => upd parent (set_last (Some last))
  end ;;;
  np <- load parent ;;
  d <- deref (n_owner np) ;;
  load d ;;;
  with_fuel (fun f => attach_loop f parent last (Some first)) ;;;
  np' <- load parent ;;
  subtree_event (n_owner np') parent.

(** _dom_node_attach, node.c:2074-2079. *)
Definition attach (i parent : id) (previous next : option id) : M st unit :=
  attach_range i i parent previous next.

(** _dom_node_detach, node.c:2086-2093, with _dom_node_detach_range
    (node.c:2166-2201) for the one-node range it is always used with. *)
Definition detach (i : id) : M st unit :=
  mark_pending i ;;;
  n <- load i ;;
  match n_prev n with
  | Some p => upd p (set_next (n_next n))
  | None => p <- deref (n_parent n) ;; upd p (set_first (n_next n))
  end ;;;
  n <- load i ;;
  match n_next n with
  | Some x => upd x (set_prev (n_prev n))
  | None => p <- deref (n_parent n) ;; upd p (set_last (n_prev n))
  end ;;;
  n <- load i ;;
  change_event (n_owner n) i (n_parent n) REMOVAL ;;;
  upd i (set_parent None) ;;;
  p <- deref (n_parent n) ;;
  np <- load p ;;
  subtree_event (n_owner np) p ;;;
  upd i (set_prev None) ;;;
  upd i (set_next None).

(** node.c:808-810 / 925-930: every child of the fragment permitted? *)
Fixpoint all_permitted (fuel : nat) (parent : id) (p : option id) : M st bool :=
  match p with
  | None => ret true
  | Some c =>
      match fuel with
      | O => stuck OutOfFuel
      | S f =>
          b <- permitted_child parent c ;;
          if b then n <- load c ;; all_permitted f parent (n_next n) else ret false
      end
  end.

(** The last part of _dom_node_insert_before, node.c:799-853: [new_child] has no parent any more. *)
Definition do_insert (node new_child : id) (ref_child : option id) : M st id :=
  remove_pending new_child ;;;
  nc <- load new_child ;;
  (if ntype_eqb (n_type nc) FRAGMENT then
     b <- with_fuel (fun f => all_permitted f node (n_first nc)) ;;
     check b HIERARCHY_REQUEST_ERR ;;;
     match n_first nc with
     | None => ret tt
     | Some c =>
         l <- deref (n_last nc) ;;
         nn <- load node ;;
         match ref_child with
         | None => attach_range c l node (n_last nn) None
         | Some r => nr <- load r ;; attach_range c l node (n_prev nr) (Some r)
         end ;;;
         upd new_child (set_first None) ;;;
         upd new_child (set_last None)
     end
   else
     nn <- load node ;;
     match ref_child with
     | None => attach new_child node (n_last nn) None
     | Some r => nr <- load r ;; attach new_child node (n_prev nr) (Some r)
     end) ;;;
  nn <- load node ;;
  when (ntype_eqb (n_type nn) DOCUMENT && ntype_eqb (n_type nc) DOCTYPE)
       (upd new_child (set_owner (Some node))) ;;;
  node_ref new_child ;;;
  ret new_child.

(** _dom_node_insert_before, node.c:746-854.  The result is the inserted node. *)
Definition insert_before (node new_child : id) (ref_child : option id) : M st id :=
  nn <- load node ;;
  nc <- load new_child ;;
  let wrong := if ntype_eqb (n_type nc) DOCTYPE
               then negb (is_none (n_owner nc)) && negb (oid_eqb (n_owner nc) (n_owner nn))
               else negb (oid_eqb (n_owner nc) (n_owner nn)) in
  check (negb wrong) WRONG_DOCUMENT_ERR ;;;
  ro <- readonly node ;;
  check (negb ro) NO_MODIFICATION_ALLOWED_ERR ;;;
  match ref_child with
  | None => ret tt
  | Some r => nr <- load r ;; check (oid_eqb (n_parent nr) (Some node)) NOT_FOUND_ERR
  end ;;;
  anc <- with_fuel (fun f => anc_loop f new_child (Some node)) ;;
  check (negb anc) HIERARCHY_REQUEST_ERR ;;;
  (if ntype_eqb (n_type nc) FRAGMENT then ret tt
   else b <- permitted_child node new_child ;; check b HIERARCHY_REQUEST_ERR) ;;;
  if oid_eqb (Some new_child) ref_child then node_ref new_child ;;; ret new_child
  else
    match n_parent nc with
    | Some q =>
        roq <- readonly q ;;
        check (negb roq) NO_MODIFICATION_ALLOWED_ERR ;;;
        detach new_child
    | None => ret tt
    end ;;;
    do_insert node new_child ref_child.

(** _dom_node_append_child, node.c:1060-1066. *)
Definition append_child (node new_child : id) : M st id := insert_before node new_child None.

(** The loop of _dom_node_replace, node.c:2257-2259. *)
Fixpoint reparent_loop (fuel : nat) (parent : option id) (last : id) (p : option id) : M st unit :=
  match p with
  | None => ret tt
  | Some i =>
      nl <- load last ;;
      if oid_eqb p (n_next nl) then ret tt
      else
        match fuel with
        | O => stuck OutOfFuel
        | S f => upd i (set_parent parent) ;;; n <- load i ;; reparent_loop f parent last (n_next n)
        end
  end.

(** _dom_node_replace, node.c:2215-2262. *)
Definition node_replace (old replacement : id) : M st unit :=
  nr <- load replacement ;;
  fl <- (if ntype_eqb (n_type nr) FRAGMENT then
           upd replacement (set_last None) ;;;
           upd replacement (set_first None) ;;;
           ret (n_first nr, n_last nr)
         else ret (Some replacement, Some replacement)) ;;
  no <- load old ;;
  match fl with
  | (None, _) =>
      match n_prev no with
      | None => p <- deref (n_parent no) ;; upd p (set_first (n_next no))
      | Some _ => ret tt
      end ;;;
      match n_next no with
      | None => p <- deref (n_parent no) ;; upd p (set_last (n_prev no))
      | Some _ => ret tt
      end ;;;
      upd old (fun n => set_parent None (set_next None (set_prev None n)))
  | (Some first, l) =>
      last <- deref l ;;
      upd first (set_prev (n_prev no)) ;;;
      upd last (set_next (n_next no)) ;;;
      match n_prev no with
      | Some p => upd p (set_next (Some first))
      | None => p <- deref (n_parent no) ;; upd p (set_first (Some first))
      end ;;;
      match n_next no with
      | Some x => upd x (set_prev (Some last))
      | None => p <- deref (n_parent no) ;; upd p (set_last (Some last))
      end ;;;
      with_fuel (fun f => reparent_loop f (n_parent no) last (Some first)) ;;;
      upd old (fun n => set_parent None (set_next None (set_prev None n)))
  end.

(** The last part of _dom_node_replace_child, node.c:951-965. *)
Definition do_replace (new_child old_child : id) : M st id :=
  remove_pending new_child ;;;
  node_replace old_child new_child ;;;
  node_ref old_child ;;;
  mark_pending old_child ;;;
  ret old_child.

(** _dom_node_replace_child, node.c:889-967.  The result is the replaced node. *)
Definition replace_child (node new_child old_child : id) : M st id :=
  nn <- load node ;;
  nc <- load new_child ;;
  check (negb (ntype_eqb (n_type nn) DOCUMENT &&
               (ntype_eqb (n_type nc) DOCTYPE || ntype_eqb (n_type nc) ELEMENT))) NOT_SUPPORTED_ERR ;;;
  check (oid_eqb (n_owner nc) (n_owner nn)) WRONG_DOCUMENT_ERR ;;;
  ro <- readonly node ;;
  check (negb ro) NO_MODIFICATION_ALLOWED_ERR ;;;
  no <- load old_child ;;
  check (oid_eqb (n_parent no) (Some node)) NOT_FOUND_ERR ;;;
  anc <- with_fuel (fun f => anc_loop f new_child (Some node)) ;;
  check (negb anc) HIERARCHY_REQUEST_ERR ;;;
  (if ntype_eqb (n_type nc) FRAGMENT then
     b <- with_fuel (fun f => all_permitted f node (n_first nc)) ;; check b HIERARCHY_REQUEST_ERR
   else b <- permitted_child node new_child ;; check b HIERARCHY_REQUEST_ERR) ;;;
  if Nat.eqb new_child old_child then node_ref old_child ;;; ret old_child
  else
    match n_parent nc with
    | Some q =>
        roq <- readonly q ;;
        check (negb roq) NO_MODIFICATION_ALLOWED_ERR ;;;
        detach new_child
    | None => ret tt
    end ;;;
    do_replace new_child old_child.

(** ** Destruction *)

(** _dom_node_try_destroy, node.c:2304-2320; [destroy] is the virtual destructor. *)
Definition try_destroy_with (destroy : id -> M st unit) (i : id) : M st unit :=
  n <- load i ;;
  match n_parent n with
  | Some _ => ret tt
  | None =>
      if N.eqb (n_ref n) 0 then destroy i
      else if n_pending n then ret tt
      else d <- deref (n_owner n) ;; pend_append d i
  end.

(** The loop of _dom_node_finalise, node.c:254-260. *)
Fixpoint fin_children (fuel : nat) (destroy : id -> M st unit) (p : option id) : M st unit :=
  match p with
  | None => ret tt
  | Some c =>
      match fuel with
      | O => stuck OutOfFuel
      | S f =>
          n <- load c ;;
          upd c (set_parent None) ;;;
          try_destroy_with destroy c ;;;
          fin_children f destroy (n_next n)
      end
  end.

Definition clear_node (n : node) : node :=
  set_name None (set_value None (set_parent None (set_first None (set_last None
    (set_prev None (set_next None (set_ns None (set_prefix None n)))))))).

(** _dom_document_try_destroy, document.c:1568-1574. *)
Definition doc_try_destroy_with (destroy : id -> M st unit) (d : id) : M st unit :=
  n <- load d ;;
  if negb (N.eqb (n_ref n) 0) || negb (is_none (n_parent n)) then ret tt else destroy d.

(** _dom_node_finalise, node.c:224-298. *)
Definition finalise_with (fuel : nat) (destroy : id -> M st unit) (i : id) : M st unit :=
  n <- load i ;;
  fin_children fuel destroy (n_first n) ;;;
  upd i clear_node ;;;
  n <- load i ;;
  if n_pending n then
    d <- deref (n_owner n) ;;
    pend_del d i ;;;
    when (negb (ntype_eqb (n_type n) DOCUMENT)) (doc_try_destroy_with destroy d)
  else ret tt.

(** _dom_element_attr_list_destroy and _dom_element_attr_list_node_destroy,
    element.c:276-304 and 363-380: for each attribute, read the document's
    "class" string through the attribute's owner, drop the class cache for a
    "class" attribute, unparent the attribute and try to destroy it. *)
Definition class_string : bytes := [99; 108; 97; 115; 115]%N.
Fixpoint attrs_destroy (destroy : id -> M st unit) (l : list id) : M st unit :=
  match l with
  | [] => ret tt
  | a :: r =>
      na <- load a ;;
      d <- deref (n_owner na) ;;
      load d ;;;
      match n_ns na, n_name na with
      | None, Some nm =>
          if bytes_eqb nm class_string
          then e <- deref (n_parent na) ;; upd e (set_classes []) else ret tt
      | _, _ => ret tt
      end ;;;
      upd a (set_parent None) ;;;
      try_destroy_with destroy a ;;;
      attrs_destroy destroy r
  end.

(** The virtual destructors: _dom_element_destroy (element.c:616-648),
    _dom_document_destroy (document.c:318-364, 1288-1295), and for the other
    types "finalise, then free" (text.c:111-119, comment.c, pi.c, cdatasection.c,
    entity_ref.c:85-92, document_type.c:99-108, attr.c:160-183,
    doc_fragment.c:82-92 without the host). *)
Fixpoint destroy (fuel : nat) (i : id) : M st unit :=
  match fuel with
  | O => stuck OutOfFuel
  | S f =>
      n <- load i ;;
      match n_type n with
      | DOCUMENT =>
          finalise_with f (destroy f) i ;;;
          n' <- load i ;;
          match n_pend n' with
          | [] => free i
          | _ => ret tt
          end
      | ELEMENT =>
          attrs_destroy (destroy f) (n_attrs n) ;;;
          upd i (fun n => set_classes [] (set_attrs [] n)) ;;;
          finalise_with f (destroy f) i ;;;
          free i
      | _ => finalise_with f (destroy f) i ;;; free i
      end
  end.

Definition try_destroy (i : id) : M st unit :=
  with_fuel (fun f => try_destroy_with (destroy f) i).

(** dom_node_unref, include/dom/core/node.h:195-202: --refcnt on a uint32_t,
    then try to destroy at zero. *)
Definition node_unref (i : id) : M st unit :=
  upd i (fun n => set_ref (u32 (n_ref n + (two32 - 1))) n) ;;;
  n <- load i ;;
  when (N.eqb (n_ref n) 0) (try_destroy i).

(** _dom_node_remove_child, node.c:987-1032.  The result is the removed node. *)
Definition remove_child (node old_child : id) : M st id :=
  nn <- load node ;;
  no <- load old_child ;;
  check (negb (ntype_eqb (n_type nn) DOCUMENT &&
               (ntype_eqb (n_type no) DOCTYPE || ntype_eqb (n_type no) ELEMENT))) NOT_SUPPORTED_ERR ;;;
  check (oid_eqb (n_parent no) (Some node)) NOT_FOUND_ERR ;;;
  ro <- readonly node ;;
  check (negb ro) NO_MODIFICATION_ALLOWED_ERR ;;;
  change_event (n_owner nn) old_child (Some node) REMOVAL ;;;
  detach old_child ;;;
  node_ref old_child ;;;
  try_destroy old_child ;;;
  nn <- load node ;;
  subtree_event (n_owner nn) node ;;;
  ret old_child.

(** _dom_element_set_attr_node, element.c:1890-2020, for an attribute of a name
    other than class that the element has no attribute of (AttrModel has the other
    cases; the search for the name is left out here).  The list of the element's
    attributes is [n_attrs]; DOMAttrModified is not logged. *)
Definition set_attribute_node (e a : id) : M st unit :=
  ne <- load e ;;
  na <- load a ;;
  check (oid_eqb (n_owner ne) (n_owner na)) WRONG_DOCUMENT_ERR ;;;
  ro <- readonly e ;;
  check (negb ro) NO_MODIFICATION_ALLOWED_ERR ;;;
  check (is_none (n_parent na) || oid_eqb (n_parent na) (Some e)) INUSE_ATTRIBUTE_ERR ;;;
  upd a (set_parent (Some e)) ;;;
  remove_pending a ;;;
  change_event (n_owner ne) a (Some e) ADDITION ;;;
  subtree_event (n_owner ne) e ;;;
  upd e (fun n => set_attrs (n_attrs n ++ [a]) n).

(** ** Creation *)

(** _dom_node_initialise, node.c:148-214. *)
Definition new_node (t : ntype) (name value ns prefix : option bytes) (owner : option id) : node :=
  mkNode t name value ns prefix None None None None None owner 1 false [] [] [] false.

Definition create_node (doc : option id) (t : ntype) (name value ns prefix : option bytes) : M st id :=
  match doc with Some d => load d ;;; ret tt | None => ret tt end ;;;
  i <- alloc (new_node t name value ns prefix doc) ;;
  mark_pending i ;;;
  ret i.

(** _dom_document_initialise, document.c:115-162: a document owns itself and is
    never in its own pending list. *)
Definition document_name : bytes := [35; 100; 111; 99; 117; 109; 101; 110; 116]%N.
Definition create_document : M st id :=
  i <- alloc (new_node DOCUMENT (Some document_name) None None None None) ;;
  upd i (set_owner (Some i)) ;;;
  ret i.

(** ** Navigation (each returned node gains a reference) *)
Definition ref_opt (p : option id) : M st (option id) :=
  match p with Some i => node_ref i ;;; ret p | None => ret None end.

(** node.c:517-533 *)
Definition get_parent_node (i : id) : M st (option id) :=
  n <- load i ;; if ntype_eqb (n_type n) ATTRIBUTE then ret None else ref_opt (n_parent n).
(** node.c:570-580 *)
Definition get_first_child (i : id) : M st (option id) := n <- load i ;; ref_opt (n_first n).
(** node.c:593-603 *)
Definition get_last_child (i : id) : M st (option id) := n <- load i ;; ref_opt (n_last n).
(** node.c:616-632 *)
Definition get_previous_sibling (i : id) : M st (option id) :=
  n <- load i ;; if ntype_eqb (n_type n) ATTRIBUTE then ret None else ref_opt (n_prev n).
(** node.c:645-661 *)
Definition get_next_sibling (i : id) : M st (option id) :=
  n <- load i ;; if ntype_eqb (n_type n) ATTRIBUTE then ret None else ref_opt (n_next n).
(** node.c:695-713 *)
Definition get_owner_document (i : id) : M st (option id) :=
  n <- load i ;; if ntype_eqb (n_type n) DOCUMENT then ret None else ref_opt (n_owner n).
(** node.c:1075-1080 *)
Definition has_child_nodes (i : id) : M st bool := n <- load i ;; ret (negb (is_none (n_first n))).

(** _dom_node_contains, node.c:305-328. *)
Definition contains (i other : id) : M st bool :=
  n <- load i ;;
  no <- load other ;;
  if oid_eqb (n_owner n) (n_owner no) then with_fuel (fun f => anc_loop f i (Some other)) else ret false.

(** _dom_node_get_node_name, node.c:363-414 (strings by value). *)
Definition get_node_name (i : id) : M st bytes :=
  n <- load i ;;
  assert_ (ntype_eqb (n_type n) DOCTYPE || ntype_eqb (n_type n) DOCUMENT || negb (is_none (n_owner n))) ;;;
  match n_name n with
  | None => stuck AssertFail
  | Some nm => ret (match n_prefix n with Some p => p ++ [58%N] ++ nm | None => nm end)
  end.
