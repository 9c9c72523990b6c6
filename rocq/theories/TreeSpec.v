(** Specification vocabulary for the tree properties: what an edit does to all
    child lists, document order, events, and histories of careless clients. *)
From Coq Require Import List Arith NArith Bool.
From Verif Require Import Base HeapModel HeapSpec HistModel.
Import ListNotations.
Local Open Scope dom_scope.

(** ** Child lists after an edit *)

Definition fragmentb (h : heap) (c : id) : bool :=
  match type_of h c with Some FRAGMENT => true | _ => false end.

(** insertBefore(p, c, r): [lp], [lc] and [l] are the child lists of [p], [c] and
    [j] before the call; the result is that of [j] after it.  Inserting a node
    before itself does nothing. *)
Definition after_insert (h : heap) (p c : id) (r : option id) (lp lc : list id) (j : id) (l : list id) : list id :=
  if oid_eqb r (Some c) then l
  else if fragmentb h c
  then if Nat.eqb j p then insert_at r lc lp else if Nat.eqb j c then [] else l
  else if Nat.eqb j p then insert_at r [c] (without c lp) else without c l.

(** replaceChild(p, c, old). *)
Definition after_replace (h : heap) (p c old : id) (lp lc : list id) (j : id) (l : list id) : list id :=
  if Nat.eqb c old then l
  else if fragmentb h c
  then if Nat.eqb j p then subst_at old lc lp else if Nat.eqb j c then [] else l
  else if Nat.eqb j p then subst_at old [c] (without c lp) else without c l.

(** The same nodes are alive, with the same content; [x] has one reference more. *)
Definition same_content (h h' : heap) (x : id) : Prop :=
  (forall j, live h j <-> live h' j) /\
  forall j n n', h j = Some n -> h' j = Some n' ->
    n_type n' = n_type n /\ n_attrs n' = n_attrs n /\ n_name n' = n_name n /\ n_value n' = n_value n /\
    n_ns n' = n_ns n /\ n_prefix n' = n_prefix n /\ n_classes n' = n_classes n /\ n_ro n' = n_ro n /\
    (n_owner n' = n_owner n \/ n_owner n = None) /\
    n_ref n' = (if Nat.eqb j x then n_ref n + 1 else n_ref n)%N.

(** At most one child of [p] has type [t]. *)
Definition at_most_one (h : heap) (p : id) (t : ntype) : Prop :=
  forall l x y, children h p l -> In x l -> In y l -> type_of h x = Some t -> type_of h y = Some t -> x = y.

(** ** Document order: [i] and everything below it, parents before children. *)
Inductive order (h : heap) : id -> list id -> Prop :=
| order_node i l ls : children h i l -> Forall2 (order h) l ls -> order h i (i :: concat ls).

(** Events of one node [c], whose subtree is [c :: ds], entering or leaving [p]. *)
Definition enters (p c : id) (ds : list id) : list event := EvInserted c p :: map EvInsertedDoc ds.
Definition leaves (p c : id) (ds : list id) : list event := EvRemoved c p :: map EvRemovedDoc ds.

(** The events of insertBefore(p, c, r), each change reported once. *)
Inductive insert_events (h : heap) (p c : id) (r : option id) : list event -> Prop :=
| ie_self : r = Some c -> insert_events h p c r []
| ie_frag_empty : r <> Some c -> type_of h c = Some FRAGMENT -> children h c [] -> insert_events h p c r []
| ie_frag l dss : r <> Some c -> type_of h c = Some FRAGMENT -> children h c l -> l <> [] ->
    Forall2 (fun x ds => order h x (x :: ds)) l dss ->
    insert_events h p c r (concat (map (fun q => enters p (fst q) (snd q)) (combine l dss)) ++ [EvSubtree p])
| ie_new ds : r <> Some c -> type_of h c <> Some FRAGMENT -> parent_of h c = None -> order h c (c :: ds) ->
    insert_events h p c r (enters p c ds ++ [EvSubtree p])
| ie_move q ds : r <> Some c -> type_of h c <> Some FRAGMENT -> parent_of h c = Some q -> order h c (c :: ds) ->
    insert_events h p c r ((leaves q c ds ++ [EvSubtree q]) ++ enters p c ds ++ [EvSubtree p]).

(** The events of removeChild(p, c), each change reported once. *)
Inductive remove_events (h : heap) (p c : id) : list event -> Prop :=
| re_once ds : order h c (c :: ds) -> remove_events h p c (leaves p c ds ++ [EvSubtree p]).

(** ** Careless clients: the only rule is to pass nodes one owns. *)
Definition passes (o : op) : list id :=
  match o with
  | ONewDocument | ONewDoctype _ _ => []
  | OCreate d _ _ _ _ _ => [d]
  | OInsert p c (Some r) => [p; c; r]
  | OInsert p c None | OAppend p c | ORemove p c => [p; c]
  | OReplace p c old => [p; c; old]
  | OContains i j | OSetAttribute i j => [i; j]
  | ORef i | OUnref i | OParent i | OFirst i | OLast i | OPrev i | ONext i | OOwner i | OHasChild i => [i]
  end.
Definition owning (s : st) (g : client) (o : op) : Prop :=
  Forall (holds g) (passes o) /\
  match o with
  | OCreate d t _ _ _ _ => type_of (s_heap s) d = Some DOCUMENT /\ t <> DOCUMENT
  | OSetAttribute e a => type_of (s_heap s) e = Some ELEMENT /\ type_of (s_heap s) a = Some ATTRIBUTE /\
      parent_of (s_heap s) a <> Some e /\ new_attribute (s_heap s) e a
  | _ => True
  end.

Inductive reach_any : nat -> st -> client -> Prop :=
| any_start : reach_any 0 empty_st no_client
| any_call k s g o r s' : reach_any k s g -> owning s g o -> exec o s = Ok r s' -> reach_any (S k) s' (account s o r g)
| any_fail k s g o e s' : reach_any k s g -> owning s g o -> exec o s = Exc e s' -> reach_any (S k) s' g.

(** Careful clients who, besides, never insert a fragment into a document. *)
Definition no_fragment_into_document (s : st) (o : op) : Prop :=
  match o with
  | OInsert p c _ | OAppend p c | OReplace p c _ =>
      type_of (s_heap s) p = Some DOCUMENT -> type_of (s_heap s) c <> Some FRAGMENT
  | _ => True
  end.
Inductive reach_doc : nat -> st -> client -> Prop :=
| doc_start : reach_doc 0 empty_st no_client
| doc_call k s g o r s' : reach_doc k s g -> legal s g o -> no_fragment_into_document s o ->
    exec o s = Ok r s' -> reach_doc (S k) s' (account s o r g)
| doc_fail k s g o e s' : reach_doc k s g -> legal s g o -> exec o s = Exc e s' -> reach_doc (S k) s' g.

(** Nothing happens but that the answered node, if any, gains a reference. *)
Definition answered (s : st) (o : option id) (s' : st) : Prop :=
  s_log s' = s_log s /\ s_nxt s' = s_nxt s /\
  forall j, s_heap s' j =
    match s_heap s j with
    | Some n => Some (if oid_eqb o (Some j) then set_ref (n_ref n + 1) n else n)
    | None => None
    end.

(** [i] sits at the root of a tree: nothing is its parent. *)
Definition top_node (h : heap) (i : id) : Prop := live h i /\ parent_of h i = None.
