(** Specification of setTextContent, normalize, cloneNode and isEqualNode. *)
From Coq Require Import List Arith NArith Bool.
From Verif Require Import Base HeapModel HeapSpec HistModel TreeSpec WalkModel WalkSpec.
Import ListNotations.

(** The nodes whose text content is that of their children and can be set. *)
Definition holds_text (t : ntype) : Prop := t = ELEMENT \/ t = FRAGMENT \/ t = ATTRIBUTE.

(** The state after the text content of [p] was set to [v]; [t] is the new text node. *)
Record retexted (s : st) (g : client) (p t : id) (v : option bytes) (s' : st) : Prop := mkRetexted {
  rt_linked : linked s';
  rt_fresh : ~ live (s_heap s) t;
  rt_only : children (s_heap s') p [t];
  rt_node : exists n, s_heap s' t = Some n /\ n_type n = TEXT /\ n_value n = v /\ n_parent n = Some p;
  rt_reads : get_text_content p s' = Ok v s';
  (* the previous children have no parent *)
  rt_out : forall l c, children (s_heap s) p l -> In c l -> parent_of (s_heap s') c = None;
  (* nothing the client owns is lost *)
  rt_held : forall j, holds g j -> live (s_heap s') j;
  (* all other child lists are as they were *)
  rt_lists : forall j l, live (s_heap s') j -> j <> p -> j <> t -> children (s_heap s) j l -> children (s_heap s') j l;
  (* what is gone was not owned, and lay below [p] or was a document *)
  rt_gone : forall j, live (s_heap s) j -> ~ live (s_heap s') j ->
     ~ holds g j /\ (type_of (s_heap s) j = Some DOCUMENT \/ anc (s_heap s) p j /\ j <> p);
  (* and nobody's content changed *)
  rt_content : forall j n n', s_heap s j = Some n -> s_heap s' j = Some n' -> n_type n' = n_type n /\
     (holds g j \/ n_type n <> DOCUMENT -> n_name n' = n_name n /\ n_value n' = n_value n /\ n_ns n' = n_ns n /\
        n_prefix n' = n_prefix n /\ n_attrs n' = n_attrs n /\ n_ref n' = n_ref n)
}.

(** No two neighbours in the list are text nodes. *)
Definition no_adjacent_text (h : heap) (l : list id) : Prop :=
  forall a x y b, l = a ++ x :: y :: b -> ~ (type_of h x = Some TEXT /\ type_of h y = Some TEXT).

(** The two nodes agree in type, name, prefix, namespace and value. *)
Definition same_fields (n m : node) : Prop :=
  n_type n = n_type m /\ no_null (n_name n) = no_null (n_name m) /\ no_null (n_prefix n) = no_null (n_prefix m) /\
  no_null (n_ns n) = no_null (n_ns m) /\ no_null (n_value n) = no_null (n_value m).

(** [j] heads a copy, in [h'], of the tree that [i] heads in [h]: the same types,
    names and values, copies of the children and of the attributes in the same order,
    and no node of the old state in it. *)
Inductive copy_of (h h' : heap) : id -> id -> Prop :=
| copy_node i j n m l k :
    h i = Some n -> h' j = Some m -> h j = None ->
    n_type m = n_type n -> n_name m = n_name n -> n_value m = n_value n -> n_ns m = n_ns n -> n_prefix m = n_prefix n ->
    Forall2 (copy_of h h') (n_attrs n) (n_attrs m) -> (forall a, In a (n_attrs m) -> parent_of h' a = Some j) ->
    children h i l -> children h' j k -> Forall2 (copy_of h h') l k -> copy_of h h' i j.

(** The node types that can be cloned. *)
Definition clonable (t : ntype) : Prop := In t [ELEMENT; FRAGMENT; ATTRIBUTE; TEXT; CDATA; COMMENT].

(** The state after a deep clone of [i] answered [j]. *)
Record cloned (s : st) (i j : id) (s' : st) : Prop := mkCloned {
  cd_linked : linked s';
  cd_copy : copy_of (s_heap s) (s_heap s') i j;
  cd_top : exists m, s_heap s' j = Some m /\ n_parent m = None /\ n_ref m = 1%N;
  (* the old nodes are all as they were *)
  cd_old : forall x n, s_heap s x = Some n -> exists n', s_heap s' x = Some n' /\ n_type n' = n_type n /\ n_name n' = n_name n /\
     n_value n' = n_value n /\ n_ns n' = n_ns n /\ n_prefix n' = n_prefix n /\ n_attrs n' = n_attrs n /\ n_ref n' = n_ref n /\
     n_parent n' = n_parent n /\ (n_owner n' = n_owner n \/ n_owner n = None);
  cd_lists : forall x l, children (s_heap s) x l -> children (s_heap s') x l
}.
