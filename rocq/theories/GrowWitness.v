(** Tables without rows, by history. *)
From Coq Require Import List Arith NArith ZArith Bool.
From Verif Require Import Base HeapModel HeapSpec HistModel HistProofs TreeSpec WalkModel WalkSpec WalkWitness HtmlModel HtmlSpec HtmlWitness PartModel CellModel OptionWitness FormWitness TreeProofs TreeProofs4 TreeWitness ContentWitness PartWitness.
Import ListNotations.

Lemma bodies_made : forall s e k, listedb true s_TBODY s e k = true -> items s_TBODY (s_heap s) e k.
Proof. intros s e k H. apply listedb_ok in H; [exact H|discriminate|discriminate]. Qed.
(** 2 has a caption, a head and a foot, 7 nothing. *)
Lemma rowless : forall e, In e [2; 7] -> rows (s_heap tab) e [] /\ items s_TBODY (s_heap tab) e [] /\ ~ read_only (s_heap tab) e.
Proof.
  intros e I. split; [|split; [|exact (tab_editable e I)]]; destruct I as [<-|[<-|[]]];
    first [apply rows_made; vm_compute; reflexivity|apply bodies_made; vm_compute; reflexivity|vm_compute; reflexivity].
Qed.

(** 2 a table with the caption 3 and the empty bodies 4 and 5. *)
Definition bare_ops : list op :=
  [ONewDocument; named s_HTML; named s_TABLE; named s_CAPTION; named s_TBODY; named s_TBODY; OAppend 1 2; OAppend 2 3; OAppend 2 4; OAppend 2 5].
Definition bare : st := fst (played bare_ops).
Definition bare_client : client := snd (played bare_ops).
Lemma bare_reach : reach 10 bare bare_client.
Proof. apply (played_reach bare_ops); [vm_compute; reflexivity|unfold short; vm_compute; reflexivity]. Qed.
Lemma bare_editable : forall i, In i [4] -> ~ read_only (s_heap bare) i.
Proof. apply (writable_all bare bare_client 10); [exact bare_reach|unfold short; vm_compute; reflexivity|vm_compute; reflexivity]. Qed.
Lemma bodied : reach 10 bare bare_client /\ briefly 10 /\ rows (s_heap bare) 2 [] /\ items s_TBODY (s_heap bare) 2 [4; 5] /\ ~ read_only (s_heap bare) 4.
Proof.
  split; [exact bare_reach|]. split; [unfold briefly; vm_compute; reflexivity|]. split; [apply rows_made; vm_compute; reflexivity|]. split; [apply bodies_made; vm_compute; reflexivity|].
  apply bare_editable. left. reflexivity.
Qed.
