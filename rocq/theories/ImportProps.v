(** C47: importNode and adoptNode. *)
From Coq Require Import List Arith NArith Bool.
From Verif Require Import Base HeapModel HeapSpec HistModel TreeSpec WalkModel WalkSpec ContentModel ContentSpec ImportModel ImportSpec ImportProofs ContentWitness ImportWitness.
Import ListNotations.

(** What a deep import does achieve: a faithful, parentless copy, the source as it
    was.  The copy keeps the document of the source. *)
Theorem C47_import_partial : forall k s g i doc, reach k s g -> short k -> usable_by g i -> live (s_heap s) doc -> importable (s_heap s) i ->
  exists j s', import_node doc i true s = Ok (Fresh j) s' /\ cloned s i j s' /\ owner_of (s_heap s') j = owner_of (s_heap s) i /\
    (forall p, owner_of (s_heap s) p <> None -> owner_of (s_heap s') p = owner_of (s_heap s) p).
Proof. exact import_deep. Qed.

(** So whatever is imported from another document can be inserted nowhere in the
    document that imported it. *)
Theorem C47_import_refuted : forall k s g i doc, reach k s g -> short k -> usable_by g i -> live (s_heap s) doc -> importable (s_heap s) i ->
  owner_of (s_heap s) i <> Some doc ->
  exists j s', import_node doc i true s = Ok (Fresh j) s' /\ owner_of (s_heap s') j = owner_of (s_heap s) i /\
    forall p r, live (s_heap s') p -> owner_of (s_heap s') p = Some doc -> insert_before p j r s' = Exc WRONG_DOCUMENT_ERR s'.
Proof. exact import_useless. Qed.

(** A shallow import has the attributes and no children. *)
Theorem C47_import_shallow_partial : forall k s g i n doc, reach k s g -> short k -> usable_by g i -> live (s_heap s) doc -> s_heap s i = Some n -> n_type n <> ATTRIBUTE -> clonable (n_type n) ->
  (forall a j m, In a (n_attrs n) -> anc (s_heap s) a j -> s_heap s j = Some m -> clonable (n_type m)) ->
  exists j s' m, import_node doc i false s = Ok (Fresh j) s' /\ linked s' /\ s_heap s j = None /\ s_heap s' j = Some m /\
    same_fields n m /\ n_parent m = None /\ n_ref m = 1%N /\ children (s_heap s') j [] /\
    Forall2 (copy_of (s_heap s) (s_heap s')) (n_attrs n) (n_attrs m) /\ (forall a, In a (n_attrs m) -> parent_of (s_heap s') a = Some j) /\
    (forall x l, children (s_heap s) x l -> children (s_heap s') x l).
Proof. exact import_shallow. Qed.

(** Adopting an element answers a copy, takes the source from its parent and keeps
    the old document. *)
Theorem C47_adopt_partial : forall k s g i doc, reach k s g -> short (S k) -> usable_by g i -> live (s_heap s) doc -> importable (s_heap s) i ->
  type_of (s_heap s) i = Some ELEMENT -> ~ read_only (s_heap s) i -> (forall p, parent_of (s_heap s) i = Some p -> type_of (s_heap s) p <> Some DOCUMENT) ->
  exists j s', adopt_node doc i s = Ok (Some (Fresh j)) s' /\ adopted s i j s' /\ owner_of (s_heap s') j = owner_of (s_heap s) i.
Proof. exact adopt_ok. Qed.

(** Adopting text, comments and instructions answers nothing, without an exception,
    and the node stays where it is. *)
Theorem C47_adopt_refuted : forall s i doc n nd, s_heap s doc = Some nd -> s_heap s i = Some n ->
  In (n_type n) [TEXT; CDATA; COMMENT; PI; ENTITY; NOTATION] -> adopt_node doc i s = Ok None s.
Proof. exact adopt_nothing. Qed.

(** The root element of a document cannot be adopted. *)
Theorem C47_adopt_root_refuted : exists k s g i doc s', reach k s g /\ short (S k) /\ usable_by g i /\ holds g doc /\ type_of (s_heap s) doc = Some DOCUMENT /\
  type_of (s_heap s) i = Some ELEMENT /\ ~ read_only (s_heap s) i /\ adopt_node doc i s = Exc NOT_SUPPORTED_ERR s'.
Proof. exact adopt_root. Qed.

(** Documents and document types are refused. *)
Theorem C47_documents_refused : forall s i doc n nd deep, s_heap s doc = Some nd -> s_heap s i = Some n -> n_type n = DOCUMENT \/ n_type n = DOCTYPE ->
  import_node doc i deep s = Exc NOT_SUPPORTED_ERR s /\ adopt_node doc i s = Exc NOT_SUPPORTED_ERR s.
Proof. exact import_refuses. Qed.

(** The copies of children keep a reference nobody holds: when the client gives the
    import back, they stay. *)
Theorem C47_import_leaks_refuted : exists k s g i doc j s1 s2 c n, reach k s g /\ short (S k) /\ usable_by g i /\ holds g doc /\ type_of (s_heap s) doc = Some DOCUMENT /\
  import_node doc i true s = Ok (Fresh j) s1 /\ s_heap s c = None /\ children (s_heap s1) j [c] /\
  node_unref j s1 = Ok tt s2 /\ s_heap s2 j = None /\ s_heap s2 c = Some n /\ n_ref n = 1%N /\ n_parent n = None.
Proof. exact import_keeps. Qed.

Example C47_case : reach 10 two two_client /\ short 11 /\ usable_by two_client 2 /\ holds two_client 4 /\ live (s_heap two) 4 /\ importable (s_heap two) 2 /\
  type_of (s_heap two) 2 = Some ELEMENT /\ ~ read_only (s_heap two) 2 /\ parent_of (s_heap two) 2 = Some 1 /\ type_of (s_heap two) 1 = Some ELEMENT /\
  children (s_heap two) 2 [3] /\ owner_of (s_heap two) 2 = Some 0 /\ type_of (s_heap two) 4 = Some DOCUMENT /\ owner_of (s_heap two) 5 = Some 4.
Proof. exact two_case. Qed.
(** An element with an attribute that holds a text. *)
Example C47_attributes_case : reach 16 label label_client /\ short 17 /\ usable_by label_client 5 /\ holds label_client 8 /\ live (s_heap label) 8 /\ importable (s_heap label) 5 /\
  type_of (s_heap label) 5 = Some ELEMENT /\ ~ read_only (s_heap label) 5 /\ parent_of (s_heap label) 5 = Some 1 /\ type_of (s_heap label) 1 = Some ELEMENT /\
  (exists n, s_heap label 5 = Some n /\ n_type n = ELEMENT /\ n_attrs n = [6]) /\ children (s_heap label) 6 [7].
Proof. exact label_import. Qed.
Example C47_shallow_case : exists n, s_heap label 5 = Some n /\ n_type n = ELEMENT /\ n_attrs n = [6] /\ clonable (n_type n) /\
  (forall a j m, In a (n_attrs n) -> anc (s_heap label) a j -> s_heap label j = Some m -> clonable (n_type m)).
Proof. exact label_shallow. Qed.
Example C47_text_case : exists k s g i doc, reach k s g /\ short (S k) /\ usable_by g i /\ holds g doc /\ type_of (s_heap s) doc = Some DOCUMENT /\
  type_of (s_heap s) i = Some TEXT.
Proof. exact two_text. Qed.

Definition C47_theorems := (C47_import_partial, C47_import_shallow_partial, C47_import_refuted, C47_adopt_partial, C47_adopt_refuted, C47_adopt_root_refuted, C47_documents_refused, C47_import_leaks_refuted).
Print Assumptions C47_theorems.
