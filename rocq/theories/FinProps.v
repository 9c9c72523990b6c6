(** C63: releasing an HTML document. *)
From Coq Require Import List Arith NArith Bool.
From Verif Require Import Base HeapModel HeapSpec HistModel HistProofs DocWitness FinModel FinSpec FinProofs FinReach FinWitness.
Import ListNotations.

(** What releasing does to the nodes is what C10 to C14 say of it. *)
Theorem C63_nodes : forall i s x s' x', html_unref i (s, x) = Ok tt (s', x') -> node_unref i s = Ok tt s'.
Proof. exact nodes_same. Qed.
Theorem C63_nodes_back : forall i s x s', node_unref i s = Ok tt s' -> (exists x', html_unref i (s, x) = Ok tt (s', x')) \/ html_unref i (s, x) = Bad UseAfterFree.
Proof. exact nodes_or_freed. Qed.
(** A document nothing is left of gives back its strings, once each. *)
Theorem C63_alone_partial : forall j s g, reach j s g -> short j -> forall d n x, s_heap s d = Some n -> n_type n = DOCUMENT -> owns g d = 1%N -> children (s_heap s) d [] -> n_pend n = [] ->
  NoDup (x_strings x d) -> (forall c, In c (x_strings x d) -> x_count x c <> 0%N) ->
  exists s' x', html_unref d (s, x) = Ok tt (s', x') /\ ~ live (s_heap s') d /\ x_tables x' d = false /\
    forall c, (In c (x_strings x d) -> x_count x' c = (x_count x c - 1)%N) /\ (~ In c (x_strings x d) -> x_count x' c = x_count x c).
Proof. exact alone. Qed.
(** An element the client keeps longer than the document stays, but every accessor of
    a string attribute of it is a NULL dereference. *)
Theorem C63_held_refuted : forall j s g, reach j s g -> short (S j) -> forall d e n x, type_of (s_heap s) d = Some DOCUMENT -> owns g d = 1%N -> s_heap s e = Some n -> n_type n = ELEMENT ->
  n_owner n = Some d -> holds g e -> quiet x ->
  exists s' x', html_unref d (s, x) = Ok tt (s', x') /\ live (s_heap s') e /\ known_name e (s', x') = Bad NullDeref.
Proof. exact held_names. Qed.
(** If the document has a string that is its own, such as a title, the release after which
    the document is gone releases the string again: whatever happened in between to the counts, as
    long as the string was not revived. *)
Theorem C63_twice_refuted : forall j s g, reach j s g -> short j -> forall d x c s1 x1, type_of (s_heap s) d = Some DOCUMENT -> owns g d = 1%N ->
  In c (x_strings x d) -> x_count x c = 1%N -> html_unref d (s, x) = Ok tt (s1, x1) ->
  forall s2 x2 i s3, onward x1 x2 -> type_of (s_heap s2) d = Some DOCUMENT -> node_unref i s2 = Ok tt s3 -> ~ live (s_heap s3) d -> html_unref i (s2, x2) = Bad UseAfterFree.
Proof. exact released_twice. Qed.

Example C63_held_case : reach 2 lone lone_client /\ short 3 /\ type_of (s_heap lone) 0 = Some DOCUMENT /\ owns lone_client 0 = 1%N /\
  (exists n, s_heap lone 1 = Some n /\ n_type n = ELEMENT /\ n_owner n = Some 0) /\ holds lone_client 1 /\ quiet untitled /\ known_name 1 (lone, untitled) = Ok tt (lone, untitled).
Proof. exact held_case. Qed.
Example C63_twice_case : exists j s g d c x, reach j s g /\ short j /\ type_of (s_heap s) d = Some DOCUMENT /\ owns g d = 1%N /\ In c (x_strings x d) /\ x_count x c = 1%N /\
  exists e y, holds g e /\ html_unref d (s, x) = Ok tt y /\ html_unref e y = Bad UseAfterFree.
Proof. exact twice_case. Qed.
Example C63_alone_case : reach 1 blank blank_client /\ short 1 /\ (exists n, s_heap blank 0 = Some n /\ n_type n = DOCUMENT /\ n_pend n = []) /\ owns blank_client 0 = 1%N /\
  children (s_heap blank) 0 [] /\ NoDup (x_strings titled 0) /\ (forall c, In c (x_strings titled 0) -> x_count titled c <> 0%N).
Proof. exact alone_case. Qed.

Definition C63_theorems := (C63_nodes, C63_nodes_back, C63_alone_partial, C63_held_refuted, C63_twice_refuted).
Print Assumptions C63_theorems.
