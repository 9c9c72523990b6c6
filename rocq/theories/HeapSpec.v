(** Vocabulary in which the tree properties are stated: what can be observed by
    following the links of a heap. *)
From Coq Require Import List NArith Bool.
From Verif Require Import Base HeapModel.
Import ListNotations.

Definition live (h : heap) (i : id) : Prop := exists n, h i = Some n.

(** The nodes met by following next-sibling links from a pointer until NULL. *)
Inductive fwd (h : heap) : option id -> list id -> Prop :=
| fwd_nil : fwd h None []
| fwd_cons i n l : h i = Some n -> fwd h (n_next n) l -> fwd h (Some i) (i :: l).

(** The nodes met by following previous-sibling links from a pointer until NULL. *)
Inductive bwd (h : heap) : option id -> list id -> Prop :=
| bwd_nil : bwd h None []
| bwd_cons i n l : h i = Some n -> bwd h (n_prev n) l -> bwd h (Some i) (i :: l).

(** [l] is the child list of [p]: what firstChild and then nextSibling give. *)
Definition children (h : heap) (p : id) (l : list id) : Prop :=
  exists n, h p = Some n /\ fwd h (n_first n) l.

(** [a] is [i] or an ancestor of [i] (following parent links). *)
Inductive anc (h : heap) (a : id) : id -> Prop :=
| anc_refl : anc h a a
| anc_step i n p : h i = Some n -> n_parent n = Some p -> anc h a p -> anc h a i.

Definition type_of (h : heap) (i : id) : option ntype := option_map n_type (h i).
Definition parent_of (h : heap) (i : id) : option id :=
  match h i with Some n => n_parent n | None => None end.
Definition owner_of (h : heap) (i : id) : option id :=
  match h i with Some n => n_owner n | None => None end.
Definition refs_of (h : heap) (i : id) : option N := option_map n_ref (h i).

(** Consistency of the child list of [p] (property C01): the forward and the
    backward walk agree, no node occurs twice, every member has [p] as parent,
    and every node whose parent is [p] (attributes apart) is a member. *)
Definition consistent_children (h : heap) (p : id) (l : list id) : Prop :=
  exists n, h p = Some n /\ fwd h (n_first n) l /\ bwd h (n_last n) (rev l) /\ NoDup l /\
  (forall c, In c l <-> exists nc, h c = Some nc /\ n_parent nc = Some p /\ n_type nc <> ATTRIBUTE).

(** ** Child-list arithmetic used to state the editing operations *)

(** [l] without [i]. *)
Definition without (i : id) (l : list id) : list id := filter (fun j => negb (Nat.eqb j i)) l.

(** [xs] put into [l] before [r], or at the end when there is no [r]. *)
Fixpoint before (r : id) (xs l : list id) : list id :=
  match l with
  | [] => xs
  | y :: k => if Nat.eqb y r then xs ++ l else y :: before r xs k
  end.
Definition insert_at (r : option id) (xs l : list id) : list id :=
  match r with Some r => before r xs l | None => l ++ xs end.

(** Checks made in order: the first that fails decides the error. *)
Inductive first_failure : list (Prop * exn) -> option exn -> Prop :=
| ff_none : first_failure [] None
| ff_here (P : Prop) e r : P -> first_failure ((P, e) :: r) (Some e)
| ff_skip (P : Prop) e r o : ~ P -> first_failure r o -> first_failure ((P, e) :: r) o.

(** A node that may not be edited: doctypes and notations, read-only
    attributes, and (attributes apart) everything inside an entity or an entity
    reference. *)
Definition read_only (h : heap) (i : id) : Prop :=
  exists n, h i = Some n /\
    (n_type n = DOCTYPE \/ n_type n = NOTATION \/ (n_type n = ATTRIBUTE /\ n_ro n = true) \/
     (n_type n <> ATTRIBUTE /\ exists a na, anc h a i /\ h a = Some na /\
         (n_type na = ENTITY \/ n_type na = ENTITY_REFERENCE))).

(** The DOM's table of permitted children (DOM Level 3 Core, 1.1.1). *)
Inductive nests : ntype -> ntype -> Prop :=
| nests_content p c : In p [ELEMENT; ENTITY_REFERENCE; ENTITY; FRAGMENT] ->
    In c [ELEMENT; TEXT; COMMENT; PI; CDATA; ENTITY_REFERENCE] -> nests p c
| nests_attr c : In c [TEXT; ENTITY_REFERENCE] -> nests ATTRIBUTE c
| nests_document c : In c [ELEMENT; PI; COMMENT; DOCTYPE] -> nests DOCUMENT c.

(** [c] may become a child of [p]: the types nest, and a document gets no second
    root element and no second doctype. *)
Definition may_nest (h : heap) (p c : id) : Prop :=
  exists np nc, h p = Some np /\ h c = Some nc /\ nests (n_type np) (n_type nc) /\
    (n_type np = DOCUMENT -> n_type nc = ELEMENT \/ n_type nc = DOCTYPE ->
     forall l x nx, children h p l -> In x l -> h x = Some nx -> n_type nx <> n_type nc).

(** ** The checks of the editing operations, in the order they are made *)

(** A doctype that has no document yet may be inserted anywhere a doctype may. *)
Definition wrong_document (h : heap) (p c : id) : Prop :=
  owner_of h c <> owner_of h p /\ ~ (type_of h c = Some DOCTYPE /\ owner_of h c = None).

(** insertBefore(p, c, r). *)
Definition insert_checks (h : heap) (p c : id) (r : option id) : list (Prop * exn) :=
  [ (wrong_document h p c, WRONG_DOCUMENT_ERR);
    (read_only h p, NO_MODIFICATION_ALLOWED_ERR);
    ((exists i, r = Some i /\ parent_of h i <> Some p), NOT_FOUND_ERR);
    (anc h c p, HIERARCHY_REQUEST_ERR);
    ((type_of h c <> Some FRAGMENT /\ ~ may_nest h p c), HIERARCHY_REQUEST_ERR);
    ((r <> Some c /\ exists q, parent_of h c = Some q /\ read_only h q), NO_MODIFICATION_ALLOWED_ERR) ].

(** replaceChild(p, c, old). *)
Definition replace_checks (h : heap) (p c old : id) : list (Prop * exn) :=
  [ (type_of h p = Some DOCUMENT /\ (type_of h c = Some DOCTYPE \/ type_of h c = Some ELEMENT), NOT_SUPPORTED_ERR);
    (owner_of h c <> owner_of h p, WRONG_DOCUMENT_ERR);
    (read_only h p, NO_MODIFICATION_ALLOWED_ERR);
    (parent_of h old <> Some p, NOT_FOUND_ERR);
    (anc h c p, HIERARCHY_REQUEST_ERR);
    (type_of h c = Some FRAGMENT /\ (exists l x, children h c l /\ In x l /\ ~ may_nest h p x) \/
       type_of h c <> Some FRAGMENT /\ ~ may_nest h p c, HIERARCHY_REQUEST_ERR);
    (c <> old /\ exists q, parent_of h c = Some q /\ read_only h q, NO_MODIFICATION_ALLOWED_ERR) ].

(** [l] with [o] replaced by [xs]. *)
Fixpoint subst_at (o : id) (xs l : list id) : list id :=
  match l with
  | [] => []
  | y :: k => if Nat.eqb y o then xs ++ k else y :: subst_at o xs k
  end.

(** removeChild(p, c). *)
Definition remove_checks (h : heap) (p c : id) : list (Prop * exn) :=
  [ (type_of h p = Some DOCUMENT /\ (type_of h c = Some DOCTYPE \/ type_of h c = Some ELEMENT), NOT_SUPPORTED_ERR);
    (parent_of h c <> Some p, NOT_FOUND_ERR);
    (read_only h p, NO_MODIFICATION_ALLOWED_ERR) ].

(** ** Destruction *)

(** The nodes that go down with [i]: [i] itself, and every unreferenced node
    whose parent goes down. *)
Inductive dies (h : heap) (i : id) : id -> Prop :=
| dies_root : dies h i i
| dies_step j n p : h j = Some n -> n_parent n = Some p -> n_ref n = 0%N -> dies h i p -> dies h i j.

(** The referenced nodes that lose their parent when [i] goes down. *)
Definition orphaned (h : heap) (i j : id) : Prop :=
  exists n p, h j = Some n /\ n_parent n = Some p /\ (n_ref n > 0)%N /\ dies h i p.
