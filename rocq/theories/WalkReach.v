(** What careful clients build is well linked. *)
From Coq Require Import List Arith NArith Bool Lia ZifyBool ZifyNat ZifyN.
From Verif Require Import Base HeapModel HeapSpec HeapInv HeapExec HeapOps HistModel HistProofs TreeSpec TreeProofs WalkModel WalkSpec.
Import ListNotations.

Lemma wf_linked : forall s ch, wf s ch -> linked s.
Proof.
  intros s ch (WL & WT & WO & WR). constructor.
  - intros i (n & H). exact (WL _ _ H).
  - intros p L. exists (ch p). apply wfT_consistent; auto.
  - intros i n p H P. destruct (wt_parent _ _ WT _ _ _ H P) as (np & A & _). exists np; auto.
  - intros i Li. apply (wt_rooted _ _ WT) in Li. clear - Li. induction Li.
    + exists i. split; [constructor|]. split; [exists n; auto|]. unfold parent_of. rewrite H. auto.
    + destruct IHLi as (r & A & B). exists r. split; auto. econstructor; eauto.
  - intros i n p np H P HP NA. destruct (wt_parent _ _ WT _ _ _ H P) as (np' & A & B & _). assert (np' = np) by congruence; subst.
    apply nests_iff. apply B; auto.
  - intros i n a H I. destruct (wt_attrs _ _ WT _ _ H) as (_ & _ & Q). destruct (Q a I) as (na & A & B & _).
    unfold type_of. rewrite A. simpl. congruence.
  - intros i n H T. destruct (n_owner n) as [d|] eqn:O; [exists d; auto|]. destruct (wo_noowner _ _ WO _ _ H O). congruence.
  - intros i n d H T O. destruct (wo_owner _ _ WO _ _ _ H O) as [(nd & A & _)|[[A _] _]]; [exists nd; auto|congruence].
Qed.

Theorem reach_linked : forall k s g, reach k s g -> short k -> linked s.
Proof. intros k s g R SH. destruct (reach_good _ _ _ R SH) as [[ch W] AG]. eapply wf_linked; eauto. Qed.

Theorem reach_counted : forall k s g, reach k s g -> short k -> counted s.
Proof.
  intros k s g R SH i n H. destruct (reach_good _ _ _ R SH) as [_ AG]. rewrite (ag_ref _ _ _ AG _ _ H).
  pose proof (ag_bound _ _ _ AG i). unfold short, two32 in *. lia.
Qed.
