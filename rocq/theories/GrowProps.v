(** C49: a row put into a table that has none. *)
From Coq Require Import List Arith NArith ZArith Bool.
From Verif Require Import Base HeapModel HeapSpec HistModel HistProofs TreeSpec WalkModel WalkSpec HtmlModel HtmlSpec PartWitness GrowSpec GrowProofs GrowBody GrowWitness.
Import ListNotations.

(** insertRow(-1) and insertRow(0) on a table with no row and no body: a new TBODY is put
    last, with the answered new row as its only child, and nothing else changes. *)
Theorem C49_table_insert_first : forall j s g e, reach j s g -> briefly j -> rows (s_heap s) e [] -> items s_TBODY (s_heap s) e [] -> ~ read_only (s_heap s) e ->
  forall index, (index = -1 \/ index = 0)%Z -> exists b row s', table_insert_row e index s = Ok row s' /\ grown s e b row s'.
Proof. exact reach_grow. Qed.

(** A table with caption, head and foot, and an empty one. *)
Example C49_first_cases : reach 18 tab tab_client /\ briefly 18 /\
  forall e, In e [2; 7] -> rows (s_heap tab) e [] /\ items s_TBODY (s_heap tab) e [] /\ ~ read_only (s_heap tab) e.
Proof. exact (conj tab_reach (conj tab_brief rowless)). Qed.

(** With bodies but no row, the row goes into the first body. *)
Theorem C49_table_insert_first_body : forall j s g e b k, reach j s g -> briefly j -> rows (s_heap s) e [] -> items s_TBODY (s_heap s) e (b :: k) -> ~ read_only (s_heap s) b ->
  forall index, (index = -1 \/ index = 0)%Z -> exists row s', table_insert_row e index s = Ok row s' /\ grown_in s e b row s'.
Proof. exact reach_grow_in. Qed.

(** A table with a caption and two empty bodies. *)
Example C49_first_body_case : reach 10 bare bare_client /\ briefly 10 /\ rows (s_heap bare) 2 [] /\ items s_TBODY (s_heap bare) 2 [4; 5] /\ ~ read_only (s_heap bare) 4.
Proof. exact bodied. Qed.

Definition C49_first_theorems := (C49_table_insert_first, C49_table_insert_first_body).
Print Assumptions C49_first_theorems.
