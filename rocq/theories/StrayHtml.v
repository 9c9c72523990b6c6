(** The calls on selects, tables, sections and rows that are empty and have a sibling after them. *)
From Coq Require Import List Arith NArith ZArith Bool Lia.
From Verif Require Import Base HeapModel HeapSpec HeapInv HeapExec HeapTree HistModel HistProofs TreeSpec StringModel WalkModel WalkSpec WalkProofs WalkLists WalkFinds HtmlModel HtmlSpec HtmlBase HtmlSelect HtmlTake HtmlRows HtmlTable HtmlInsert
  WalkReach StraySpec StrayProofs.
Import ListNotations.
Local Open Scope dom_scope.

Definition stands (h : heap) (e : id) : Prop := exists n p y, h e = Some n /\ n_type n = ELEMENT /\ n_first n = None /\ n_parent n = Some p /\ n_next n = Some y.
Definition treed (h : heap) (e : id) : Prop := exists top l, parent_of h top = None /\ order h top l /\ In e l.

Lemma chain_mid : forall h p l1 e y l2, chain h p (l1 ++ e :: y :: l2) -> exists n, h e = Some n /\ n_parent n = Some p /\ n_next n = Some y.
Proof.
  intros h p l1. induction l1 as [|x l1 IH]; intros e y l2 C; cbn [app chain] in C; destruct C as [Q C]; [|eapply IH; eauto]. destruct Q as (n & A1 & A2 & A3 & A4). exists n. auto.
Qed.
Lemma hollow_stands : forall s e, linked s -> hollow (s_heap s) e -> stands (s_heap s) e /\ treed (s_heap s) e.
Proof.
  intros s e L (T & (n & H & F) & (p & l1 & y & l2 & C) & TD). split; [|exact TD]. pose proof C as (np & HP & _). destruct (linked_list _ L _ _ HP) as (l & CC & CH & _). 
  assert (l = l1 ++ e :: y :: l2). { eapply WalkProofs.children_det; [|exact C]. destruct CC as (m & A & B & _). exists m. auto. } subst l.
  destruct (chain_mid _ _ _ _ _ _ CH) as (m & M & P & X). assert (m = n) by congruence. subst m. unfold type_of in T. rewrite H in T. injection T as T.
  exists n, p, y. split; auto. split; auto. split; auto. inversion F; auto.
Qed.

Lemma stray_count : forall s e, linked s -> stands (s_heap s) e -> treed (s_heap s) e -> forall eq name, count_in eq name e s = Bad NullDeref.
Proof.
  intros s e L (n & p & y & H & T & F & P & X) (top & l & TP & O & I) eq name. apply in_split in I as (a & b & ->).
  destruct (ln_owner _ L _ _ H) as (d & D); [congruence|]. pose proof (ln_element _ L _ _ _ H T D) as (nd & LD).
  assert (HD : html_doc e s = Ok d s). { unfold html_doc. rewrite (bind_ok _ _ _ _ _ _ _ _ (load_ok _ _ _ H)). rewrite D. rewrite (bind_ok _ _ _ _ _ _ _ _ (load_ok _ _ _ LD)). reflexivity. }
  unfold count_in. rewrite (bind_ok _ _ _ _ _ _ _ _ HD). eapply stray; eauto.
Qed.

(** The counting calls, and those that count first. *)
Lemma stray_delete : forall s e, linked s -> stands (s_heap s) e -> treed (s_heap s) e -> forall tag index, delete_tagged tag e index s = Bad NullDeref.
Proof. intros s e L H T tag index. unfold delete_tagged, bind. rewrite stray_count by auto. reflexivity. Qed.

Lemma stray_insert : forall s ch e, wf s ch -> stands (s_heap s) e -> treed (s_heap s) e -> forall tag index, insert_tagged tag e index s = Bad NullDeref.
Proof.
  intros s ch e W H (top & l & TP & O & I) tag index. pose proof H as (ne & p & y & He & TE & F & P & X). destruct (new_element s ch e ne tag W He TE) as (d & s0 & ED & EC & F0).
  unfold insert_tagged. rewrite (bind_ok _ _ _ _ _ _ _ _ ED). rewrite (bind_ok _ _ _ _ _ _ _ _ (load_ok _ _ _ He)). rewrite (bind_ok _ _ _ _ _ _ _ _ EC).
  unfold bind at 1. rewrite stray_count; [reflexivity|eapply wf_linked; exact (fe_wf _ _ _ _ _ _ F0)| |].
  - destruct (fresh_placed _ _ _ _ _ _ F0 _ _ He) as (n0 & H0 & Q). destruct Q as (Q1&_&_&_&_&Q6&Q7&_&_&Q10&_). exists n0, p, y. repeat split; congruence.
  - exists top, l. split; [|split; [|exact I]; eapply order_links; [|exact O]; apply children_links; intros j n H0; destruct (fresh_placed _ _ _ _ _ _ F0 _ _ H0) as (n' & A & (_&_&_&_&_&_&X1&_&_&X2&_)); exists n'; auto].
    assert (LT : exists nt, s_heap s top = Some nt) by (inversion O as [? ? ? (n & A & _)]; exists n; auto). destruct LT as (nt & HT). destruct (fresh_placed _ _ _ _ _ _ F0 _ _ HT) as (n0 & H0 & Q).
    unfold parent_of in *. rewrite HT in TP. rewrite H0. destruct Q as (_&_&_&_&_&Q6&_). cbn in *. congruence.
Qed.

Lemma reach_stray : forall j s g e, reach j s g -> briefly j -> hollow (s_heap s) e ->
  select_length e s = Bad NullDeref /\ selected_index e s = Bad NullDeref /\ rows_length e s = Bad NullDeref /\
  forall index, table_insert_row e index s = Bad NullDeref /\ table_delete_row e index s = Bad NullDeref /\ section_insert_row e index s = Bad NullDeref /\
    section_delete_row e index s = Bad NullDeref /\ row_insert_cell e index s = Bad NullDeref /\ row_delete_cell e index s = Bad NullDeref.
Proof.
  intros j s g e RE BR H. destruct (reach_roomy _ _ _ RE BR) as [(ch & W) [R _]]. pose proof (wf_linked _ _ W) as L. destruct (hollow_stands _ _ L H) as [S T].
  assert (RL : rows_length e s = Bad NullDeref) by (unfold rows_length; apply stray_count; auto). assert (SL : select_length e s = Bad NullDeref) by (unfold select_length; apply stray_count; auto).
  split; [exact SL|]. split; [unfold selected_index, bind; rewrite SL; reflexivity|]. split; [exact RL|]. intros index.
  split; [unfold table_insert_row, bind; rewrite RL; reflexivity|]. split; [unfold table_delete_row, bind; rewrite RL; reflexivity|].
  split; [eapply stray_insert; eauto|]. split; [apply stray_delete; auto|]. split; [eapply stray_insert; eauto|apply stray_delete; auto].
Qed.

Section Reached.
  Variables (j : nat) (s : st) (g : client) (e : id).
  Hypothesis RE : reach j s g.
  Hypothesis BR : briefly j.
  Hypothesis H : hollow (s_heap s) e.
  Lemma stray_select : select_length e s = Bad NullDeref /\ selected_index e s = Bad NullDeref.
  Proof. destruct (reach_stray j s g e RE BR H) as (A & B & _). auto. Qed.
  Lemma stray_table : rows_length e s = Bad NullDeref /\ forall index, table_insert_row e index s = Bad NullDeref /\ table_delete_row e index s = Bad NullDeref /\
    section_insert_row e index s = Bad NullDeref /\ section_delete_row e index s = Bad NullDeref.
  Proof. destruct (reach_stray j s g e RE BR H) as (_ & _ & A & B). split; auto. intros index. destruct (B index) as (B1 & B2 & B3 & B4 & _). auto. Qed.
  Lemma stray_row : forall index, row_insert_cell e index s = Bad NullDeref /\ row_delete_cell e index s = Bad NullDeref.
  Proof. intros index. destruct (reach_stray j s g e RE BR H) as (_ & _ & _ & B). destruct (B index) as (_ & _ & _ & _ & B5 & B6). auto. Qed.
End Reached.
