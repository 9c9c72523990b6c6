(** An element that outlives its document. *)
From Coq Require Import List Arith NArith Bool Lia.
From Verif Require Import Base HeapModel HeapSpec HistModel HistProofs TreeProofs4 TreeWitness WalkModel HtmlWitness OptionWitness DocModel DocWitness FinModel FinSpec FinProofs FinReach.
Import ListNotations.

(** The document 0 and its FORM 1, of which the client has a reference each; the
    title of the document is the string 7. *)
Definition lone_ops : list op := [ONewDocument; named s_FORM].
Definition lone : st := fst (played lone_ops).
Definition lone_client : client := snd (played lone_ops).
Lemma lone_reach : reach 2 lone lone_client.
Proof. apply (played_reach lone_ops); [vm_compute; reflexivity|unfold short; vm_compute; reflexivity]. Qed.
Definition titled : ext := mkExt (Nat.eqb 0) (fun d => if Nat.eqb d 0 then [7] else []) (fun c => if Nat.eqb c 7 then 1%N else 0%N).
Definition untitled : ext := mkExt (Nat.eqb 0) (fun _ => []) (fun _ => 0%N).
Lemma form_owned : forall s i, match s_heap s i with Some n => ntype_eqb (n_type n) ELEMENT && oid_eqb (n_owner n) (Some 0) | None => false end = true ->
  exists n, s_heap s i = Some n /\ n_type n = ELEMENT /\ n_owner n = Some 0.
Proof.
  intros s i H. destruct (s_heap s i) as [n|]; [|discriminate]. apply andb_prop in H as [A B]. exists n. split; auto. split; [destruct (n_type n); try discriminate; auto|].
  destruct (n_owner n) as [o|]; [|discriminate]. destruct o; [reflexivity|discriminate].
Qed.
Lemma held_case : reach 2 lone lone_client /\ short 3 /\ type_of (s_heap lone) 0 = Some DOCUMENT /\ owns lone_client 0 = 1%N /\
  (exists n, s_heap lone 1 = Some n /\ n_type n = ELEMENT /\ n_owner n = Some 0) /\ holds lone_client 1 /\ quiet untitled /\ known_name 1 (lone, untitled) = Ok tt (lone, untitled).
Proof.
  split; [exact lone_reach|]. split; [unfold short; vm_compute; reflexivity|]. split; [vm_compute; reflexivity|]. split; [vm_compute; reflexivity|].
  split; [apply form_owned; vm_compute; reflexivity|]. split; [unfold holds; vm_compute; reflexivity|]. split; [intros d; reflexivity|reflexivity].
Qed.
Definition outcome {A} (r : res hst A) : nat := match r with Ok _ _ => 0 | Exc _ _ => 1 | Bad UseAfterFree => 2 | Bad _ => 3 end.
Lemma outcome_ok : forall r : res hst unit, outcome r = 0 -> exists s x, r = Ok tt (s, x).
Proof. intros [[] [s x]|e [s x]|[]] E; try discriminate. eauto. Qed.
Lemma outcome_freed : forall r : res hst unit, outcome r = 2 -> r = Bad UseAfterFree.
Proof. intros [[] [s x]|e [s x]|[]] E; try discriminate. reflexivity. Qed.
Lemma outcome_bind : forall (m k : M hst unit) sx, match m sx with Ok _ y => outcome (k y) | _ => 9 end = 2 -> exists y, m sx = Ok tt y /\ k y = Bad UseAfterFree.
Proof. intros m k sx E. destruct (m sx) as [[] y|e y|b]; try discriminate. exists y. split; auto. apply outcome_freed. exact E. Qed.
Lemma twice_case : exists j s g d c x, reach j s g /\ short j /\ type_of (s_heap s) d = Some DOCUMENT /\ owns g d = 1%N /\ In c (x_strings x d) /\ x_count x c = 1%N /\
  exists e y, holds g e /\ html_unref d (s, x) = Ok tt y /\ html_unref e y = Bad UseAfterFree.
Proof.
  exists 2, lone, lone_client, 0, 7, titled. split; [exact lone_reach|]. split; [unfold short; vm_compute; reflexivity|]. split; [vm_compute; reflexivity|]. split; [vm_compute; reflexivity|].
  split; [left; reflexivity|]. split; [reflexivity|]. destruct (outcome_bind (html_unref 0) (html_unref 1) (lone, titled)) as (y & A & B); [vm_compute; reflexivity|].
  exists 1, y. split; [unfold holds; vm_compute; reflexivity|]. auto.
Qed.
(** The first release leaves the element, the second frees both. *)
Lemma unref_both : match node_unref 0 lone with Ok _ s => match node_unref 1 s with Ok _ t => livesb s 0 && livesb s 1 && negb (livesb t 0) | _ => false end | _ => false end = true.
Proof. vm_compute. reflexivity. Qed.
Lemma alone_case : reach 1 blank blank_client /\ short 1 /\ (exists n, s_heap blank 0 = Some n /\ n_type n = DOCUMENT /\ n_pend n = []) /\ owns blank_client 0 = 1%N /\
  children (s_heap blank) 0 [] /\ NoDup (x_strings titled 0) /\ (forall c, In c (x_strings titled 0) -> x_count titled c <> 0%N).
Proof.
  split; [exact blank_reach|]. split; [unfold short; vm_compute; reflexivity|]. split.
  { assert (G : match s_heap blank 0 with Some n => ntype_eqb (n_type n) DOCUMENT && match n_pend n with [] => true | _ => false end | None => false end = true) by (vm_compute; reflexivity).
    destruct (s_heap blank 0) as [n|]; [|discriminate]. exists n. split; auto. destruct (n_type n); try discriminate. destruct (n_pend n); [auto|discriminate]. }
  split; [vm_compute; reflexivity|]. split; [apply kids_ok; vm_compute; reflexivity|]. split; [repeat constructor; intros []|]. intros c [<-|[]]. discriminate.
Qed.
