(** Client histories: sequences of API calls, the references the client owns and
    the calls it is allowed to make. *)
From Coq Require Import List Arith NArith Bool.
From Verif Require Import Base HeapModel HeapSpec.
Import ListNotations.
Local Open Scope dom_scope.

(** The calls of the node API (include/dom/core/node.h, document.h). *)
Inductive op :=
| ONewDocument
| ONewDoctype (name value : option bytes)
| OCreate (d : id) (t : ntype) (name value ns prefix : option bytes)
| OInsert (p c : id) (r : option id)
| OAppend (p c : id)
| OReplace (p c old : id)
| ORemove (p c : id)
| ORef (i : id)
| OUnref (i : id)
| OParent (i : id)
| OFirst (i : id)
| OLast (i : id)
| OPrev (i : id)
| ONext (i : id)
| OOwner (i : id)
| OHasChild (i : id)
| OContains (i j : id)
| OSetAttribute (e a : id).

(** What a call answers. *)
Inductive out := OutNothing | OutNode (o : option id) | OutBool (b : bool).

Definition node_out (m : M st id) : M st out := i <- m ;; ret (OutNode (Some i)).
Definition nodes_out (m : M st (option id)) : M st out := o <- m ;; ret (OutNode o).
Definition bool_out (m : M st bool) : M st out := b <- m ;; ret (OutBool b).

Definition exec (o : op) : M st out :=
  match o with
  | ONewDocument => node_out create_document
  | ONewDoctype nm v => node_out (create_node None DOCTYPE nm v None None)
  | OCreate d t nm v ns pf => node_out (create_node (Some d) t nm v ns pf)
  | OInsert p c r => node_out (insert_before p c r)
  | OAppend p c => node_out (append_child p c)
  | OReplace p c old => node_out (replace_child p c old)
  | ORemove p c => node_out (remove_child p c)
  | ORef i => node_ref i ;;; ret (OutNode (Some i))
  | OUnref i => node_unref i ;;; ret OutNothing
  | OParent i => nodes_out (get_parent_node i)
  | OFirst i => nodes_out (get_first_child i)
  | OLast i => nodes_out (get_last_child i)
  | OPrev i => nodes_out (get_previous_sibling i)
  | ONext i => nodes_out (get_next_sibling i)
  | OOwner i => nodes_out (get_owner_document i)
  | OHasChild i => bool_out (has_child_nodes i)
  | OContains i j => bool_out (contains i j)
  | OSetAttribute e a => set_attribute_node e a ;;; ret (OutNode None)
  end.

(** ** The client *)

(** How many references to each node the client owns, and which fragments it
    has already inserted somewhere. *)
Record client := mkClient { owns : id -> N; used : id -> bool }.
Definition no_client : client := mkClient (fun _ => 0%N) (fun _ => false).

Definition gain (g : client) (i : id) : client :=
  mkClient (fun j => if Nat.eqb j i then owns g j + 1 else owns g j)%N (used g).
Definition lose (g : client) (i : id) : client :=
  mkClient (fun j => if Nat.eqb j i then owns g j - 1 else owns g j)%N (used g).
Definition spend (g : client) (i : id) : client :=
  mkClient (owns g) (fun j => Nat.eqb j i || used g j).

(** Every node an API call answers carries a reference for the caller, and
    dom_node_unref gives one up.  A fragment that has been inserted is used. *)
Definition is_fragment (s : st) (i : id) : bool :=
  match s_heap s i with Some n => ntype_eqb (n_type n) FRAGMENT | None => false end.
Definition spend_new (s : st) (o : op) (g : client) : client :=
  match o with
  | OInsert _ c _ | OAppend _ c | OReplace _ c _ => if is_fragment s c then spend g c else g
  | _ => g
  end.
Definition account (s : st) (o : op) (r : out) (g : client) : client :=
  match o, r with
  | OUnref i, _ => lose g i
  | _, OutNode (Some i) => gain (spend_new s o g) i
  | _, _ => g
  end.

Definition holds (g : client) (i : id) : Prop := (owns g i > 0)%N.
Definition usable_by (g : client) (i : id) : Prop := holds g i /\ used g i = false.

(** A node without parent that still has a sibling link: a child that outlived
    its parent (C14: libdom does not reset those links). *)
Definition stranded (h : heap) (i : id) : Prop :=
  exists n, h i = Some n /\ n_parent n = None /\ (n_prev n <> None \/ n_next n <> None).

Definition plain (h : heap) (i : id) : Prop := type_of h i <> Some ATTRIBUTE.

(** The element has no attribute of the name of [a], and the name is not class
    (what HeapModel has of setAttributeNode; AttrModel has the rest). *)
Definition new_attribute (h : heap) (e a : id) : Prop :=
  forall na, h a = Some na -> n_name na <> Some class_string /\
    forall ne b nb, h e = Some ne -> In b (n_attrs ne) -> h b = Some nb -> n_name nb <> n_name na.

(** The calls a careful client makes.  The client passes only nodes it owns a
    reference to, and
    - never edits with a fragment it has already inserted (refuted otherwise),
    - never names an attribute where a child is expected (refuted otherwise),
    - inserts a fragment only where all its children are allowed,
    - never replaces a child by an empty fragment (refuted otherwise),
    - never asks for the siblings of a stranded node (refuted otherwise). *)
Definition legal (s : st) (g : client) (o : op) : Prop :=
  let h := s_heap s in
  match o with
  | ONewDocument | ONewDoctype _ _ => True
  | OCreate d t _ _ _ _ => holds g d /\ type_of h d = Some DOCUMENT /\ t <> DOCUMENT
  | OInsert p c r =>
      usable_by g p /\ usable_by g c /\
      (forall i, r = Some i -> holds g i /\ plain h i) /\
      (type_of h c = Some FRAGMENT -> forall l x, children h c l -> In x l -> may_nest h p x)
  | OAppend p c =>
      usable_by g p /\ usable_by g c /\
      (type_of h c = Some FRAGMENT -> forall l x, children h c l -> In x l -> may_nest h p x)
  | OReplace p c old =>
      usable_by g p /\ usable_by g c /\ holds g old /\ plain h old /\
      (type_of h c = Some FRAGMENT -> ~ children h c [])
  | ORemove p c => holds g p /\ holds g c /\ plain h c
  | OPrev i | ONext i => holds g i /\ ~ stranded h i
  | OOwner i => usable_by g i
  | OContains i j => holds g i /\ holds g j
  | OSetAttribute e a => holds g e /\ holds g a /\ type_of h e = Some ELEMENT /\ type_of h a = Some ATTRIBUTE /\
      parent_of h a <> Some e /\ new_attribute h e a
  | ORef i | OUnref i | OParent i | OFirst i | OLast i | OHasChild i => holds g i
  end.

(** The states a careful client reaches in [k] calls. *)
Inductive reach : nat -> st -> client -> Prop :=
| reach_start : reach 0 empty_st no_client
| reach_call k s g o r s' : reach k s g -> legal s g o -> exec o s = Ok r s' -> reach (S k) s' (account s o r g)
| reach_fail k s g o e s' : reach k s g -> legal s g o -> exec o s = Exc e s' -> reach (S k) s' g.

(** Fewer calls than a reference counter can count. *)
Definition short (k : nat) : Prop := (N.of_nat k < 4294967294)%N.
