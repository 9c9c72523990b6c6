(** Specification of the select and table calls. *)
From Coq Require Import List Arith NArith ZArith Bool.
From Verif Require Import Base HeapModel HeapSpec HistModel TreeSpec WalkModel WalkSpec HtmlModel.
Import ListNotations.

(** Nothing changes. *)
Definition same_state (s s' : st) : Prop :=
  s_log s' = s_log s /\ s_nxt s' = s_nxt s /\ forall j, s_heap s' j = s_heap s j.

(** [k] lists the elements of tag [name] at and below [e], in document order; there
    are fewer than 2^31 nodes there. *)
Definition listed (caseless : bool) (name : bytes) (h : heap) (e : id) (k : list id) : Prop :=
  exists l, order h e l /\ (N.of_nat (length l) < 2147483648)%N /\ picks (fun i => exists n, h i = Some n /\ has_tag caseless name n) l k.

(** An element with children, or without a sibling after it. *)
Definition filled (h : heap) (e : id) : Prop :=
  exists n, h e = Some n /\ n_type n = ELEMENT /\ (n_first n <> None \/ n_next n = None).

(** The options of a select element, which is none itself. *)
Definition options (h : heap) (e : id) (k : list id) : Prop :=
  filled h e /\ ~ In e k /\ listed false s_OPTION h e k.

(** An element with an attribute of the given name. *)
Definition carries (h : heap) (name : bytes) (i : id) : Prop :=
  exists n a na, h i = Some n /\ In a (n_attrs n) /\ h a = Some na /\ no_null (n_name na) = name.

(** The position of the first member of [k] with the property, -1 without one. *)
Inductive first_index {A} (P : A -> Prop) : list A -> Z -> Prop :=
| fi_none k : Forall (fun x => ~ P x) k -> first_index P k (-1)
| fi_some a x b : Forall (fun y => ~ P y) a -> P x -> first_index P (a ++ x :: b) (Z.of_nat (length a)).

(** The elements of a tag below an element, which is none itself. *)
Definition items (tag : bytes) (h : heap) (e : id) (k : list id) : Prop :=
  filled h e /\ ~ In e k /\ listed true tag h e k.
(** The rows of a table or a table section, and the cells of a row. *)
Definition rows : heap -> id -> list id -> Prop := items s_TR.
Definition cells : heap -> id -> list id -> Prop := items s_TD.

(** Where row [index] goes: the row it is inserted before, none for the end. *)
Definition row_at (k : list id) (index : Z) : option id :=
  if (index =? -1)%Z then None else nth_error k (Z.to_nat index).
(** The row [index] names, -1 being the last. *)
Definition row_named (k : list id) (index : Z) : option id :=
  if (index =? -1)%Z then nth_error k (length k - 1) else nth_error k (Z.to_nat index).

(** The node keeps its place in the tree and everything else but attributes. *)
Definition placed (n n' : node) : Prop :=
  n_type n' = n_type n /\ n_name n' = n_name n /\ n_value n' = n_value n /\ n_ns n' = n_ns n /\ n_prefix n' = n_prefix n /\
  n_parent n' = n_parent n /\ n_first n' = n_first n /\ n_last n' = n_last n /\ n_prev n' = n_prev n /\ n_next n' = n_next n /\
  n_owner n' = n_owner n /\ n_ref n' = n_ref n.

(** [x] carries the attribute; every tree, every other attribute and every reference
    is as before. *)
Record marked (s : st) (x : id) (name : bytes) (s' : st) : Prop := mkMarked {
  mk_linked : linked s';
  mk_nodes : forall j n, s_heap s j = Some n -> exists n', s_heap s' j = Some n' /\ placed n n' /\ (j <> x -> n_attrs n' = n_attrs n);
  mk_carries : forall nm y, live (s_heap s) y -> (carries (s_heap s') nm y <-> carries (s_heap s) nm y \/ (y = x /\ nm = name))
}.

(** [x] is no child any more, and nothing else has moved.  If nobody holds [x], it is
    gone, with what only it kept. *)
Record taken (s : st) (x : id) (s' : st) : Prop := mkTaken {
  tk_linked : linked s';
  tk_lists : forall p l, live (s_heap s') p -> children (s_heap s) p l -> children (s_heap s') p (without x l);
  tk_stays : forall y n, s_heap s y = Some n -> ~ anc (s_heap s) x y -> (n_type n = DOCUMENT -> (n_ref n > 0)%N) ->
     exists n', s_heap s' y = Some n' /\ n_type n' = n_type n /\ n_name n' = n_name n /\ n_value n' = n_value n /\ n_ns n' = n_ns n /\
       n_prefix n' = n_prefix n /\ n_attrs n' = n_attrs n /\ n_ref n' = n_ref n;
  tk_held : forall n, s_heap s x = Some n -> (n_ref n > 0)%N ->
     (exists n', s_heap s' x = Some n' /\ n_parent n' = None /\ n_ref n' = n_ref n) /\ forall y, live (s_heap s) y -> live (s_heap s') y
}.

(** [k] lists the elements of tag [name] at and below [e], in document order. *)
Definition lists (caseless : bool) (name : bytes) (h : heap) (e : id) (k : list id) : Prop :=
  exists l, order h e l /\ picks (fun i => exists n, h i = Some n /\ has_tag caseless name n) l k.

(** [row] is a new element of that tag, held by the client, among the children of [e]
    before [r] (at the end without one); nothing else has moved or changed. *)
Record added (tag : bytes) (s : st) (e row : id) (r : option id) (s' : st) : Prop := mkAdded {
  rw_linked : linked s';
  rw_fresh : s_heap s row = None;
  rw_row : exists n ne, s_heap s' row = Some n /\ s_heap s e = Some ne /\ n_type n = ELEMENT /\ n_name n = Some tag /\ n_ns n = n_ns ne /\
     n_prefix n = n_prefix ne /\ n_owner n = n_owner ne /\ n_parent n = Some e /\ n_attrs n = [] /\ n_ref n = 1%N;
  rw_empty : children (s_heap s') row [];
  rw_lists : forall p l, children (s_heap s) p l -> children (s_heap s') p (if Nat.eqb p e then insert_at r [row] l else l);
  rw_nodes : forall j n, s_heap s j = Some n -> exists n', s_heap s' j = Some n' /\ n_type n' = n_type n /\ n_name n' = n_name n /\
     n_value n' = n_value n /\ n_ns n' = n_ns n /\ n_prefix n' = n_prefix n /\ n_attrs n' = n_attrs n /\ n_ref n' = n_ref n
}.

(** A new row, a new cell. *)
Definition rowed : st -> id -> id -> option id -> st -> Prop := added s_TR.
Definition celled : st -> id -> id -> option id -> st -> Prop := added s_TD.

(** The nodes are the same and as they were; a document that nothing refers to may
    have gone. *)
Record unmoved (s s' : st) : Prop := mkUnmoved {
  um_linked : linked s';
  um_none : forall j, s_heap s j = None -> s_heap s' j = None;
  um_nodes : forall j n, s_heap s j = Some n -> (n_type n = DOCUMENT -> (n_ref n > 0)%N) ->
     exists n', s_heap s' j = Some n' /\ placed n n' /\ n_attrs n' = n_attrs n
}.

(** A history after which a call that takes a few references overflows no count. *)
Definition briefly (k : nat) : Prop := (N.of_nat k + 16 < two32)%N.

(** The head, a body or the foot of a table. *)
Definition part (name : bytes) (h : heap) (i : id) : Prop := exists n, h i = Some n /\ has_tag true name n.

(** The row of a table with the rows [k] that an index means, -1 being the end. *)
Definition at_index (k : list id) (insert : bool) (index : Z) : Z :=
  if (index =? -1)%Z then (if insert then Z.of_nat (length k) else Z.of_nat (length k) - 1)%Z else index.

(** [m] rows are in the bodies among [l]. *)
Inductive body_rows (h : heap) : list id -> nat -> Prop :=
| br_nil : body_rows h [] 0
| br_body x k l m : part s_TBODY h x -> rows h x k -> body_rows h l m -> body_rows h (x :: l) (length k + m)
| br_other x l m : ~ part s_TBODY h x -> body_rows h l m -> body_rows h (x :: l) m.

(** insertRow of the table [e] puts a new row into its section [b] with the rows [kb]:
    before row [at_] of the section, or at its end. *)
Definition put_in (s : st) (e : id) (index : Z) (b : id) (kb : list id) (at_ : Z) : Prop :=
  exists row s', table_insert_row e index s = Ok row s' /\ rowed s b row (row_at kb at_) s' /\
    lists true s_TR (s_heap s') b (insert_at (row_at kb at_) [row] kb).

(** deleteRow of the table [e] takes the row [x] from its section [b]: every list of
    children loses [x] and nothing else, and the rows of [b] that remain are those not
    in [x]. *)
Definition cut_from (s : st) (e : id) (index : Z) (b : id) (kb : list id) (x : id) : Prop :=
  exists s' kb', table_delete_row e index s = Ok tt s' /\
    (forall p l, live (s_heap s') p -> children (s_heap s) p l -> children (s_heap s') p (without x l)) /\
    live (s_heap s') b /\ lists true s_TR (s_heap s') b kb' /\ picks (fun y => ~ anc (s_heap s) x y) kb kb'.
