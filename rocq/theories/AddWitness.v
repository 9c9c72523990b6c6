(** The last option of a select made the first. *)
From Coq Require Import List Arith NArith ZArith Bool Lia.
From Verif Require Import Base HeapModel HeapSpec HistModel HistProofs TreeSpec TreeProofs4 TreeWitness WalkModel HtmlModel HtmlSpec HtmlWitness OptionWitness AddProofs.
Import ListNotations.

Lemma plain_made : forall s i, match s_heap s i with Some n => negb (ntype_eqb (n_type n) ATTRIBUTE) | None => false end = true -> plain (s_heap s) i.
Proof. intros s i H E. unfold type_of in E. destruct (s_heap s i) as [n|]; [|discriminate]. cbn in E. injection E as E. rewrite E in H. discriminate. Qed.
Lemma no_fragment : forall s i, match s_heap s i with Some n => ntype_eqb (n_type n) ELEMENT | None => false end = true -> type_of (s_heap s) i <> Some FRAGMENT.
Proof. intros s i H E. unfold type_of in E. destruct (s_heap s i) as [n|]; [|discriminate]. cbn in E. injection E as E. rewrite E in H. discriminate. Qed.
Lemma add_case : reach 51 form form_client /\ short 53 /\ legal form form_client (OInsert 2 5 (Some 3)) /\ children (s_heap form) 2 [3; 4; 5] /\ children (s_heap form) 5 [] /\
  after_insert (s_heap form) 2 5 (Some 3) [3; 4; 5] [] 2 [3; 4; 5] = [5; 3; 4].
Proof.
  split; [exact form_reach|]. split; [unfold short; vm_compute; reflexivity|]. split.
  { split; [split; [unfold holds; vm_compute; reflexivity|vm_compute; reflexivity]|]. split; [split; [unfold holds; vm_compute; reflexivity|vm_compute; reflexivity]|]. split.
    - intros i E. injection E as <-. split; [unfold holds; vm_compute; reflexivity|apply plain_made; vm_compute; reflexivity].
    - intros T. exfalso. revert T. apply no_fragment. vm_compute. reflexivity. }
  split; [apply kids_ok; vm_compute; reflexivity|]. split; [apply kids_ok; vm_compute; reflexivity|]. vm_compute. reflexivity.
Qed.
