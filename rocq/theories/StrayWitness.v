(** An empty element with a sibling after it. *)
From Coq Require Import List Arith NArith Bool.
From Verif Require Import Base HeapModel HeapSpec HeapExec HistModel HistProofs TreeSpec TreeWitness WalkModel WalkSpec WalkWitness HtmlModel HtmlSpec HtmlWitness PartModel CellModel OptionWitness FormWitness ContentWitness TreeProofs TreeProofs4 StraySpec.
Import ListNotations.

Lemma looked : forall s i (f : node -> bool), match s_heap s i with Some n => f n | None => false end = true -> exists n, s_heap s i = Some n /\ f n = true.
Proof. intros s i f H. destruct (s_heap s i) as [n|]; [exists n; auto|discriminate]. Qed.
Lemma strayed : linked lists_st /\ counted lists_st /\ exists n, s_heap lists_st 3 = Some n /\ n_type n = ELEMENT /\ n_first n = None /\ n_parent n = Some 1 /\ n_next n = Some 4 /\
  parent_of (s_heap lists_st) 0 = None /\ order (s_heap lists_st) 0 ([0; 1; 2] ++ 3 :: [4]).
Proof.
  destruct lists_linked as [A B]. split; [exact A|]. split; [exact B|].
  destruct (looked lists_st 3 (fun n => ntype_eqb (n_type n) ELEMENT && oid_eqb (n_first n) None && oid_eqb (n_parent n) (Some 1) && oid_eqb (n_next n) (Some 4))) as (n & H & Q); [vm_compute; reflexivity|].
  apply andb_prop in Q as [Q Q4]. apply andb_prop in Q as [Q Q3]. apply andb_prop in Q as [Q1 Q2]. exists n. split; [exact H|]. split; [apply HeapExec.ntype_eqb_eq; exact Q1|].
  split; [destruct (n_first n); [discriminate|reflexivity]|]. split; [apply HeapExec.oid_eqb_eq; exact Q3|]. split; [apply HeapExec.oid_eqb_eq; exact Q4|].
  split; [vm_compute; reflexivity|]. apply (WalkWitness.ordn_order 10). vm_compute. reflexivity.
Qed.

(** In the document 0: 1 with the empty select 2, the empty table 3 and the table 4 with
    the bodies 5, empty, and 6 with the empty rows 7 and 8. *)
Definition hollow_ops : list op :=
  [ONewDocument; named s_HTML; named s_SELECT; named s_TABLE; named s_TABLE; named s_TBODY; named s_TBODY; named s_TR; named s_TR;
   OAppend 0 1; OAppend 1 2; OAppend 1 3; OAppend 1 4; OAppend 4 5; OAppend 4 6; OAppend 6 7; OAppend 6 8].
Definition hol : st := fst (played hollow_ops).
Definition hol_client : client := snd (played hollow_ops).
Lemma hol_reach : reach 17 hol hol_client.
Proof. apply (played_reach hollow_ops); [vm_compute; reflexivity|unfold short; vm_compute; reflexivity]. Qed.
Lemma hol_brief : briefly 17.
Proof. unfold briefly. vm_compute. reflexivity. Qed.
Lemma hollow_made : forall s e p l1 y l2 top l, option_map n_type (s_heap s e) = Some ELEMENT -> TreeWitness.kidsn s e = Some [] -> TreeWitness.kidsn s p = Some (l1 ++ e :: y :: l2) -> 
  match s_heap s top with Some n => n_parent n | None => None end = None -> WalkWitness.ordn 20 s top = Some l -> existsb (Nat.eqb e) l = true -> hollow (s_heap s) e.
Proof.
  intros s e p l1 y l2 top l T K C P O I. split; [exact T|]. split; [apply TreeWitness.kidsn_children; exact K|]. split; [exists p, l1, y, l2; apply TreeWitness.kidsn_children; exact C|].
  exists top, l. split; [unfold parent_of; destruct (s_heap s top); auto|]. split; [apply (WalkWitness.ordn_order 20); exact O|]. apply existsb_exists in I as (x & X & Q). apply Nat.eqb_eq in Q. subst x. exact X.
Qed.
Lemma hol_case : forall e, In e [2; 3; 5; 7] -> hollow (s_heap hol) e.
Proof.
  intros e [<-|[<-|[<-|[<-|[]]]]].
  - apply (hollow_made hol 2 1 [] 3 [4] 0 [0; 1; 2; 3; 4; 5; 6; 7; 8]); vm_compute; reflexivity.
  - apply (hollow_made hol 3 1 [2] 4 [] 0 [0; 1; 2; 3; 4; 5; 6; 7; 8]); vm_compute; reflexivity.
  - apply (hollow_made hol 5 4 [] 6 [] 0 [0; 1; 2; 3; 4; 5; 6; 7; 8]); vm_compute; reflexivity.
  - apply (hollow_made hol 7 6 [] 8 [] 0 [0; 1; 2; 3; 4; 5; 6; 7; 8]); vm_compute; reflexivity.
Qed.
