(** C65: the caption, the head and the foot of a table. *)
From Coq Require Import List Arith NArith ZArith Bool.
From Verif Require Import Base HeapModel HeapSpec HistModel HistProofs TreeSpec WalkModel WalkSpec HtmlModel HtmlSpec PartModel PartSpec PartProofs PartWitness.
Import ListNotations.

(** The getters answer the first child element of that name, with a reference for the
    caller, or none. *)
Theorem C65_get : forall j s g e o, reach j s g -> briefly j ->
  (its s_CAPTION (s_heap s) e o -> exists s', get_caption e s = Ok o s' /\ answered s o s') /\
  (its s_THEAD (s_heap s) e o -> exists s', get_head e s = Ok o s' /\ answered s o s') /\
  (its s_TFOOT (s_heap s) e o -> exists s', get_foot e s = Ok o s' /\ answered s o s').
Proof. exact gets. Qed.

(** The delete calls take exactly that child out of the table, and do nothing without
    one. *)
Theorem C65_delete : forall delete (name : bytes), In (delete, name) [(delete_caption, s_CAPTION); (delete_head, s_THEAD); (delete_foot, s_TFOOT)] -> forall j s g e, reach j s g -> briefly j ->
  (its name (s_heap s) e None -> delete e s = Ok tt s) /\
  (forall x, its name (s_heap s) e (Some x) -> ~ read_only (s_heap s) e -> exists s', delete e s = Ok tt s' /\ taken s x s').
Proof. exact deletes. Qed.

(** The create calls answer the part there is; without one they put a new element of
    that name last, which is the part from then on. *)
Theorem C65_create : forall create (name : bytes), In (create, name) [(create_caption, s_CAPTION); (create_head, s_THEAD); (create_foot, s_TFOOT)] -> forall j s g e, reach j s g -> briefly j ->
  (forall x, its name (s_heap s) e (Some x) -> exists s', create e s = Ok x s' /\ answered s (Some x) s') /\
  (its name (s_heap s) e None -> ~ read_only (s_heap s) e -> exists x s', create e s = Ok x s' /\ added name s e x None s' /\ its name (s_heap s') e (Some x)).
Proof. exact creates. Qed.

(** Setting the caption or the foot of a table that has none: only an element of that
    name is accepted, under the conditions of appendChild; it is last then, and the
    part. *)
Theorem C65_set : forall set (name : bytes), In (set, name) [(set_caption, s_CAPTION); (set_foot, s_TFOOT)] -> forall j s g e, reach j s g -> briefly j -> type_of (s_heap s) e = Some ELEMENT ->
  set e None s = Exc HIERARCHY_REQUEST_ERR s /\
  (forall c, type_of (s_heap s) c = Some ELEMENT -> ~ part name (s_heap s) c -> set e (Some c) s = Exc HIERARCHY_REQUEST_ERR s) /\
  (forall c, its name (s_heap s) e None -> part name (s_heap s) c -> holds g e -> holds g c ->
     exists o, first_failure (insert_checks (s_heap s) e c None) o /\
     match o with
     | Some y => set e (Some c) s = Exc y s
     | None => exists s', set e (Some c) s = Ok tt s' /\ put_last s e c s' /\ its name (s_heap s') e (Some c)
     end).
Proof. exact sets. Qed.

(** Of a table that has one: the old one is taken out, the new one put last.  If it was
    the only one, the new one is the part.  Missing: a new part inside the old one. *)
Theorem C65_replace_partial : forall set (name : bytes), In (set, name) [(set_caption, s_CAPTION); (set_foot, s_TFOOT)] -> forall j s g e x c, reach j s g -> briefly j ->
  its name (s_heap s) e (Some x) -> ~ read_only (s_heap s) e -> part name (s_heap s) c -> ~ anc (s_heap s) x c -> holds g e -> holds g c ->
  exists s1 o, taken s x s1 /\ first_failure (insert_checks (s_heap s1) e c None) o /\
  match o with
  | Some y => set e (Some c) s = Exc y s1
  | None => exists s', set e (Some c) s = Ok tt s' /\ put_last s1 e c s' /\
      ((forall l y, children (s_heap s) e l -> In y l -> part name (s_heap s) y -> y = x \/ y = c) -> its name (s_heap s') e (Some c))
  end.
Proof. exact replaces. Qed.

(** A caption or foot that is set counts one reference more than the client has: it is
    never released. *)
Theorem C65_set_leak_refuted : forall set (name : bytes), In (set, name) [(set_caption, s_CAPTION); (set_foot, s_TFOOT)] -> forall j s g e c s', reach j s g -> briefly j ->
  its name (s_heap s) e None -> part name (s_heap s) c -> holds g e -> holds g c -> set e (Some c) s = Ok tt s' ->
  exists n', s_heap s' c = Some n' /\ n_ref n' = (owns g c + 1)%N.
Proof. exact leaks. Qed.

(** Setting a caption that appendChild refuses: the old one is gone. *)
Theorem C65_set_failure_refuted : exists j s g e x c s', reach j s g /\ briefly j /\ holds g e /\ holds g c /\ its s_CAPTION (s_heap s) e (Some x) /\ part s_CAPTION (s_heap s) c /\
  set_caption e (Some c) s = Exc WRONG_DOCUMENT_ERR s' /\ taken s x s'.
Proof. exact caption_lost. Qed.

(** Setting the head of a table: every head is refused, and a caption that is accepted
    is no head. *)
Theorem C65_set_head_refuted : forall j s g e, reach j s g -> briefly j ->
  (forall c, type_of (s_heap s) e = Some ELEMENT -> part s_THEAD (s_heap s) c -> set_head e (Some c) s = Exc HIERARCHY_REQUEST_ERR s) /\
  (forall c s', its s_THEAD (s_heap s) e None -> part s_CAPTION (s_heap s) c -> holds g e -> holds g c -> set_head e (Some c) s = Ok tt s' ->
     its s_THEAD (s_heap s') e None /\ parent_of (s_heap s') c = Some e).
Proof. exact heads. Qed.

(** ** Cases *)
Example C65_case : reach 18 tab tab_client /\ briefly 18 /\ (its s_CAPTION (s_heap tab) 2 (Some 3) /\ its s_THEAD (s_heap tab) 2 (Some 4) /\ its s_TFOOT (s_heap tab) 2 (Some 5) /\
  its s_CAPTION (s_heap tab) 7 None /\ its s_THEAD (s_heap tab) 7 None /\ its s_TFOOT (s_heap tab) 7 None) /\
  (part s_CAPTION (s_heap tab) 6 /\ part s_THEAD (s_heap tab) 8 /\ part s_TFOOT (s_heap tab) 9 /\ part s_CAPTION (s_heap tab) 11) /\
  (forall i, In i [2; 7] -> ~ read_only (s_heap tab) i).
Proof. exact (conj tab_reach (conj tab_brief (conj tab_parts (conj tab_free tab_editable)))). Qed.
Example C65_set_case : (holds tab_client 2 /\ holds tab_client 6 /\ holds tab_client 7 /\ holds tab_client 9 /\ holds tab_client 11) /\ (~ anc (s_heap tab) 3 6 /\ ~ anc (s_heap tab) 3 11) /\
  (forall l y, children (s_heap tab) 2 l -> In y l -> part s_CAPTION (s_heap tab) y -> y = 3 \/ y = 6) /\
  ((exists s', set_caption 7 (Some 6) tab = Ok tt s') /\ (exists s', set_foot 7 (Some 9) tab = Ok tt s') /\ (exists s', set_caption 2 (Some 6) tab = Ok tt s') /\
   (exists s', set_head 7 (Some 6) tab = Ok tt s')).
Proof. exact (conj tab_holds (conj tab_apart (conj tab_one tab_runs))). Qed.

Definition C65_theorems := (C65_get, C65_delete, C65_create, C65_set, C65_replace_partial, C65_set_leak_refuted, C65_set_failure_refuted, C65_set_head_refuted).
Print Assumptions C65_theorems.
