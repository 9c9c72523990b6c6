(** Specification of character data: what a node says, and what an edit may change. *)
From Coq Require Import List Arith NArith Bool.
From Verif Require Import Base StringSpec HeapModel HeapSpec HistModel TreeSpec WalkModel WalkSpec.
Import ListNotations.

(** The data of [i] are the characters [cs]; a node created without data has none. *)
Definition says (h : heap) (i : id) (cs : list N) : Prop :=
  exists n, h i = Some n /\ no_null (n_value n) = encoded cs.

(** Text, CDATA sections and comments. *)
Definition data_node (h : heap) (i : id) : Prop :=
  exists n, h i = Some n /\ (n_type n = TEXT \/ n_type n = CDATA \/ n_type n = COMMENT).

(** [i] may be edited: it is character data, not inside an entity, and its document is alive. *)
Definition editable (s : st) (i : id) : Prop :=
  linked s /\ data_node (s_heap s) i /\ ~ read_only (s_heap s) i /\
  exists d, owner_of (s_heap s) i = Some d /\ type_of (s_heap s) d = Some DOCUMENT.

(** From [s] to [s']: the data of [i] become [new], nothing else changes, and two
    events tell so, one at the node with the old and the new data, one at its
    parent if it has one. *)
Definition rewritten (s : st) (i : id) (new : option bytes) (s' : st) : Prop :=
  exists n, s_heap s i = Some n /\
    (forall j, s_heap s' j = if Nat.eqb j i then Some (set_value new n) else s_heap s j) /\
    s_nxt s' = s_nxt s /\
    s_log s' = s_log s ++ EvData i (n_value n) new ::
      match n_parent n with Some p => [EvSubtree p] | None => [] end.

(** Offsets and counts the API takes: below 2^31, the rest being read as negative. *)
Definition half : N := 2147483648.

(** The three parts of [cs] cut at [offset] and [count] characters later (or at the end). *)
Definition head_of (offset : N) (cs : list N) : list N := firstn (N.to_nat offset) cs.
Definition middle_of (offset count : N) (cs : list N) : list N := firstn (N.to_nat count) (skipn (N.to_nat offset) cs).
Definition tail_of (offset count : N) (cs : list N) : list N := skipn (N.to_nat count) (skipn (N.to_nat offset) cs).

(** ** Adjacent text *)

(** The data of the text and CDATA nodes met first in a list of siblings, up to
    the first element, comment or processing instruction. *)
Inductive run (h : heap) : list id -> list bytes -> Prop :=
| run_end : run h [] []
| run_text x n v l vs : h x = Some n -> n_type n = TEXT \/ n_type n = CDATA -> n_value n = Some v ->
    run h l vs -> run h (x :: l) (v :: vs)
| run_stop x n l : h x = Some n -> n_type n = ELEMENT \/ n_type n = COMMENT \/ n_type n = PI -> run h (x :: l) [].

(** wholeText of [t] with data [v], standing between [before] and [after]: the
    run to the left is read backwards. *)
Definition whole (h : heap) (before after : list id) (v w : bytes) : Prop :=
  exists vl vr, run h (rev before) vl /\ run h after vr /\ w = concat (rev vl) ++ v ++ concat vr.

(** No CDATA section and at most one text node stands next to the node. *)
Definition near (h : heap) (l : list id) : Prop :=
  match l with
  | [] => True
  | x :: r => type_of h x <> Some CDATA /\
      (type_of h x = Some TEXT -> match r with [] => True | y :: _ => type_of h y <> Some TEXT /\ type_of h y <> Some CDATA end)
  end.
