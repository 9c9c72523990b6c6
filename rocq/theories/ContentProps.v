(** C22, C24, C25 and C26: setTextContent, cloneNode, normalize, isEqualNode. *)
From Coq Require Import List Arith NArith Bool.
From Verif Require Import Base HeapModel HeapSpec HistModel TreeSpec WalkModel WalkSpec CharDataModel CharDataWitness ContentModel ContentSpec
  ContentProofs ContentClone ContentWitness.
Import ListNotations.

(** ** C22 *)

(** Elements, fragments and attributes, in every state a client can reach. *)
Theorem C22_set_text_content : forall k s g p np v, reach k s g -> short k -> usable_by g p ->
  s_heap s p = Some np -> holds_text (n_type np) -> ~ read_only (s_heap s) p ->
  exists t s', set_text_content p v s = Ok tt s' /\ retexted s g p t v s'.
Proof. exact set_text_ok. Qed.

Theorem C22_read_only : forall k s g p np c l v, reach k s g -> short k ->
  s_heap s p = Some np -> holds_text (n_type np) -> read_only (s_heap s) p -> children (s_heap s) p (c :: l) ->
  set_text_content p v s = Exc NO_MODIFICATION_ALLOWED_ERR s.
Proof. exact set_text_read_only. Qed.

Theorem C22_character_data : forall s p np v, s_heap s p = Some np ->
  n_type np = TEXT \/ n_type np = CDATA \/ n_type np = COMMENT -> set_text_content p v s = set_data p v s.
Proof. exact set_text_data. Qed.

Theorem C22_documents : forall s p np v, s_heap s p = Some np -> n_type np = DOCUMENT \/ n_type np = DOCTYPE ->
  set_text_content p v s = Ok tt s.
Proof. exact set_text_none. Qed.

(** A processing instruction should take the text as its data; it raises instead. *)
Theorem C22_processing_instruction_refuted : exists k s g p v s', reach k s g /\ short k /\ usable_by g p /\
  type_of (s_heap s) p = Some PI /\ ~ read_only (s_heap s) p /\ set_text_content p v s = Exc HIERARCHY_REQUEST_ERR s'.
Proof. exact pi_set_text. Qed.

Example C22_case : reach 22 book reader /\ short 22 /\ usable_by reader 1 /\
  (exists n, s_heap book 1 = Some n /\ holds_text (n_type n)) /\
  ~ read_only (s_heap book) 1 /\ children (s_heap book) 1 [2; 3; 4; 5; 6].
Proof. exact set_text_case. Qed.

(** ** C24 *)

(** Trees of elements with their attributes, fragments, attributes, text, CDATA and
    comments. *)
Theorem C24_deep_clone_partial : forall k s g i, reach k s g -> short k -> usable_by g i ->
  (forall j n, anc (s_heap s) i j -> s_heap s j = Some n -> clonable (n_type n)) ->
  exists j s', clone_node i true s = Ok (Fresh j) s' /\ cloned s i j s'.
Proof. exact clone_deep. Qed.

Theorem C24_shallow_clone_partial : forall k s g i n, reach k s g -> short k -> usable_by g i ->
  s_heap s i = Some n -> n_type n <> ATTRIBUTE -> clonable (n_type n) ->
  (forall a j m, In a (n_attrs n) -> anc (s_heap s) a j -> s_heap s j = Some m -> clonable (n_type m)) ->
  exists j s' m, clone_node i false s = Ok (Fresh j) s' /\ linked s' /\ s_heap s j = None /\ s_heap s' j = Some m /\
    same_fields n m /\ n_parent m = None /\ n_ref m = 1%N /\ children (s_heap s') j [] /\
    Forall2 (copy_of (s_heap s) (s_heap s')) (n_attrs n) (n_attrs m) /\ (forall a, In a (n_attrs m) -> parent_of (s_heap s') a = Some j) /\
    (forall x l, children (s_heap s) x l -> children (s_heap s') x l).
Proof. exact clone_shallow. Qed.

(** The clone of a processing instruction is a wild pointer. *)
Theorem C24_processing_instruction_refuted : exists k s g i s', reach k s g /\ short k /\ usable_by g i /\
  type_of (s_heap s) i = Some PI /\ clone_node i false s = Ok Wild s'.
Proof. exact pi_clone. Qed.

Theorem C24_instruction_inside_refuted : exists k s g i c, reach k s g /\ short k /\ usable_by g i /\
  type_of (s_heap s) i = Some ELEMENT /\ children (s_heap s) i [c] /\ type_of (s_heap s) c = Some PI /\
  clone_node i true s = Bad BadCast.
Proof. exact pi_inside_clone. Qed.

Example C24_case : reach 22 book reader /\ short 22 /\ usable_by reader 9 /\ children (s_heap book) 9 [1; 10] /\
  children (s_heap book) 1 [2; 3; 4; 5; 6] /\
  (forall j n, anc (s_heap book) 9 j -> s_heap book j = Some n -> clonable (n_type n)).
Proof. exact clone_case. Qed.

(** An element with attributes, one of its children with an attribute holding a text. *)
Example C24_attributes_case : reach 16 label label_client /\ short 16 /\ usable_by label_client 1 /\ usable_by label_client 5 /\
  (exists n, s_heap label 1 = Some n /\ n_type n = ELEMENT /\ n_attrs n = [4]) /\ children (s_heap label) 1 [2; 3; 5] /\
  (exists n, s_heap label 5 = Some n /\ n_type n = ELEMENT /\ n_attrs n = [6]) /\ children (s_heap label) 6 [7] /\
  (forall j n, anc (s_heap label) 1 j -> s_heap label j = Some n -> clonable (n_type n)).
Proof. exact label_case. Qed.

(** ** C25 *)

(** A tree that is already normal is left as it is. *)
Theorem C25_normal_trees_partial : forall s i, linked s -> live (s_heap s) i ->
  (forall p l, anc (s_heap s) i p -> children (s_heap s) p l -> no_adjacent_text (s_heap s) l) ->
  normalize i s = Ok tt s.
Proof. exact normalize_normal. Qed.

Theorem C25_text_content_refuted : exists k s g i v v' s0 s' s1, reach k s g /\ short k /\ usable_by g i /\
  type_of (s_heap s) i = Some ELEMENT /\
  get_text_content i s = Ok v s0 /\ normalize i s = Ok tt s' /\ get_text_content i s' = Ok v' s1 /\ v' <> v.
Proof. exact normalize_text_changed. Qed.

(** The first child is not descended into. *)
Theorem C25_adjacent_text_refuted : exists k s g i c x y l s', reach k s g /\ short k /\ usable_by g i /\
  children (s_heap s) i [c; 10] /\ normalize i s = Ok tt s' /\ children (s_heap s') c (x :: y :: l) /\
  type_of (s_heap s') x = Some TEXT /\ type_of (s_heap s') y = Some TEXT.
Proof. exact normalize_skips_first. Qed.

(** A merged text node loses a reference that the client owns. *)
Theorem C25_references_refuted : exists k s g i x s', reach k s g /\ short k /\ usable_by g i /\ usable_by g x /\
  parent_of (s_heap s) x = Some i /\ normalize i s = Ok tt s' /\ ~ live (s_heap s') x.
Proof. exact normalize_frees. Qed.

Example C25_case : linked book /\ live (s_heap book) 12 /\ children (s_heap book) 12 [11] /\
  (forall p l, anc (s_heap book) 12 p -> children (s_heap book) p l -> no_adjacent_text (s_heap book) l).
Proof. exact normalize_case. Qed.

(** ** C26 *)

(** On elements the answer is whether they are the same node: reflexive and
    symmetric, but blind to clones. *)
Theorem C26_elements_partial : forall s i j n m, linked s -> s_heap s i = Some n -> s_heap s j = Some m ->
  n_type n = ELEMENT -> n_type m = ELEMENT -> is_equal i j s = Ok (Nat.eqb i j) s.
Proof. exact equal_elements. Qed.

Theorem C26_unlike_nodes_partial : forall s i j n m, linked s -> s_heap s i = Some n -> s_heap s j = Some m ->
  n_type n <> DOCTYPE -> ~ same_fields n m -> is_equal i j s = Ok false s.
Proof. exact unlike_nodes. Qed.

Theorem C26_clone_refuted : exists k s g i j s' s2, reach k s g /\ short k /\ usable_by g i /\
  clone_node i true s = Ok (Fresh j) s' /\ copy_of (s_heap s) (s_heap s') i j /\ is_equal i j s' = Ok false s2.
Proof. exact clone_unequal. Qed.

Theorem C26_reflexive_refuted : exists k s g i, reach k s g /\ short k /\ usable_by g i /\
  type_of (s_heap s) i = Some TEXT /\ is_equal i i s = Bad NullDeref.
Proof. exact equal_crash. Qed.

(** And so for every two alike nodes that are not elements. *)
Theorem C26_alike_nodes_refuted : forall s i j n m, linked s -> s_heap s i = Some n -> s_heap s j = Some m ->
  n_type n <> DOCTYPE -> n_type n <> ELEMENT -> same_fields n m -> is_equal i j s = Bad NullDeref.
Proof. exact alike_nodes. Qed.

Example C26_case : linked book /\ type_of (s_heap book) 9 = Some ELEMENT /\ type_of (s_heap book) 1 = Some ELEMENT /\
  type_of (s_heap book) 2 = Some TEXT.
Proof. exact equal_case. Qed.

Definition content_theorems :=
  (C22_set_text_content, C22_read_only, C22_character_data, C22_documents, C22_processing_instruction_refuted,
   C24_deep_clone_partial, C24_shallow_clone_partial, C24_processing_instruction_refuted, C24_instruction_inside_refuted,
   C25_normal_trees_partial, C25_text_content_refuted, C25_adjacent_text_refuted, C25_references_refuted,
   C26_elements_partial, C26_unlike_nodes_partial, C26_clone_refuted, C26_reflexive_refuted, C26_alike_nodes_refuted).
Print Assumptions content_theorems.
