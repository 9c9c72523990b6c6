(** What DOM Level 3 Core, appendix B, says about namespaces in scope.  "xmlns" is
    [s_xmlns] and the namespace of declarations is [XMLNS_NS]. *)
From Coq Require Import List Arith NArith Bool.
From Verif Require Import Base HeapModel HeapSpec NameModel WalkSpec.
Import ListNotations.

(** The default namespace in scope at a node: that of the nearest element without a
    prefix, or what the nearest xmlns attribute says, whichever is nearer; [None] if
    there is neither. *)
Inductive default_ns (h : heap) : id -> option (option bytes) -> Prop :=
| dn_own i n : h i = Some n -> n_type n = ELEMENT -> n_prefix n = None -> default_ns h i (Some (n_ns n))
| dn_says i n v : h i = Some n -> n_type n = ELEMENT -> n_prefix n <> None -> has_attr h i s_xmlns v -> default_ns h i (Some (Some v))
| dn_up i n p r : h i = Some n -> n_type n = ELEMENT -> n_prefix n <> None -> (forall a, ~ first_named h s_xmlns (n_attrs n) a) ->
    n_parent n = Some p -> default_ns h p r -> default_ns h i r
| dn_top i n : h i = Some n -> n_type n = ELEMENT -> n_prefix n <> None -> (forall a, ~ first_named h s_xmlns (n_attrs n) a) ->
    n_parent n = None -> default_ns h i None
| dn_over i n p r : h i = Some n -> n_type n <> ELEMENT -> n_parent n = Some p -> default_ns h p r -> default_ns h i r
| dn_alone i n : h i = Some n -> n_type n <> ELEMENT -> n_parent n = None -> default_ns h i None.

(** The element is itself in the namespace of this prefix. *)
Definition bears (n : node) (p : option bytes) : Prop := n_ns n <> None /\ no_null (n_prefix n) = no_null p.
(** It has an attribute that declares the prefix: xmlns, or xmlns:p. *)
Definition declares (h : heap) (i : id) (p : option bytes) (v : bytes) : Prop :=
  match p with
  | None => has_attr h i s_xmlns v
  | Some x => exists n a na, h i = Some n /\ In a (n_attrs n) /\ h a = Some na /\ n_ns na = Some XMLNS_NS /\ n_name na = Some x /\ attr_says h a v
  end.
Definition declared (h : heap) (n : node) (p : option bytes) : Prop :=
  match p with
  | None => exists a, first_named h s_xmlns (n_attrs n) a
  | Some x => exists a na, In a (n_attrs n) /\ h a = Some na /\ n_ns na = Some XMLNS_NS /\ n_name na = Some x
  end.

(** The namespace a prefix stands for at a node. *)
Inductive stands_for (h : heap) (p : option bytes) : id -> option bytes -> Prop :=
| sf_own i n v : h i = Some n -> n_type n = ELEMENT -> bears n p -> n_ns n = Some v -> stands_for h p i (Some v)
| sf_says i n v : h i = Some n -> n_type n = ELEMENT -> ~ bears n p -> declares h i p v -> stands_for h p i (Some v)
| sf_up i n q r : h i = Some n -> n_type n = ELEMENT -> ~ bears n p -> ~ declared h n p -> n_parent n = Some q -> stands_for h p q r -> stands_for h p i r
| sf_top i n : h i = Some n -> n_type n = ELEMENT -> ~ bears n p -> ~ declared h n p -> n_parent n = None -> stands_for h p i None
| sf_over i n q r : h i = Some n -> n_type n <> ELEMENT -> n_parent n = Some q -> stands_for h p q r -> stands_for h p i r
| sf_alone i n : h i = Some n -> n_type n <> ELEMENT -> n_parent n = None -> stands_for h p i None.

(** No element from here up has an xmlns attribute or one in a namespace for declarations. *)
Definition nothing_declared (h : heap) (i : id) : Prop :=
  forall e n a na, anc h e i -> h e = Some n -> In a (n_attrs n) -> h a = Some na ->
    no_null (n_name na) <> s_xmlns /\ n_ns na <> Some s_xmlns /\ n_ns na <> Some XMLNS_NS.

(** Two states differ in reference counts only. *)
Definition unreferenced (n : node) : node := set_ref 0 n.
Definition but_counts (s s' : st) : Prop :=
  s_nxt s' = s_nxt s /\ s_log s' = s_log s /\ forall j, option_map unreferenced (s_heap s' j) = option_map unreferenced (s_heap s j).
(** No attribute is met on the way up. *)
Definition off_attributes (h : heap) (i : id) : Prop := forall a n, anc h a i -> h a = Some n -> n_type n <> ATTRIBUTE.

(** No attribute of the element is in a namespace called "xmlns". *)
Definition none_in_xmlns (h : heap) (n : node) : Prop := forall a na, In a (n_attrs n) -> h a = Some na -> n_ns na <> Some s_xmlns.
