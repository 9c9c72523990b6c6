(** Changes that leave the structure of the heap alone. *)
From Coq Require Import List Arith NArith Bool Lia ZifyBool ZifyNat ZifyN.
From Verif Require Import Base HeapModel HeapSpec HeapInv HeapExec HeapTree HeapSplice HeapLoops HeapEdit HeapAttach HeapInsert.
Import ListNotations.
Local Open Scope dom_scope.

(** Structural fields. *)
Definition struct_eq (n n' : node) : Prop :=
  n_type n' = n_type n /\ n_parent n' = n_parent n /\ n_first n' = n_first n /\ n_last n' = n_last n /\
  n_prev n' = n_prev n /\ n_next n' = n_next n /\ n_owner n' = n_owner n /\ n_pending n' = n_pending n /\
  n_attrs n' = n_attrs n /\ n_pend n' = n_pend n.

Definition same_struct (h h' : heap) : Prop :=
  (forall j, h j = None -> h' j = None) /\
  (forall j n, h j = Some n -> exists n', h' j = Some n' /\ struct_eq n n').

Lemma same_struct_hmod : forall h i f, (forall n, struct_eq n (f n)) -> same_struct h (hmod h i f).
Proof.
  intros h i f F. split.
  - intros j H. apply hmod_none. auto.
  - intros j n H. eexists. split; [eapply hmod_get; eauto|]. destruct (Nat.eqb j i); auto. repeat split.
Qed.

Lemma same_struct_inv : forall h h', same_struct h h' -> forall j n', h' j = Some n' -> exists n, h j = Some n /\ struct_eq n n'.
Proof.
  intros h h' [A B] j n' H. destruct (h j) as [n|] eqn:E.
  - destruct (B _ _ E) as (m & C & D). assert (m = n') by congruence; subst. eauto.
  - rewrite (A _ E) in H. discriminate.
Qed.

Lemma same_wfL : forall h h' nx, same_struct h h' -> wfL h nx -> wfL h' nx.
Proof. intros h h' nx S W i n H. destruct (same_struct_inv _ _ S _ _ H) as (m & A & _). eauto. Qed.

Lemma same_wfT : forall h h' ch, same_struct h h' -> wfT h ch -> wfT h' ch.
Proof.
  intros h h' ch SS W. pose proof (same_struct_inv _ _ SS) as I. destruct SS as [SN S].
  constructor.
  - intros i H. apply (wt_dead _ _ W). destruct (h i) eqn:E; auto. destruct (S _ _ E) as (m & A & B). congruence.
  - intros p n' H. destruct (I _ _ H) as (n & A & B1 & B2 & B3 & B4 & B5 & B6 & B7 & B8 & B9 & B10). destruct (wt_ends _ _ W _ _ A). split; congruence.
  - intros p. eapply seg_ext; [|apply (wt_seg _ _ W)]. intros c n _ Hc. destruct (S _ _ Hc) as (n' & A & B1 & B2 & B3 & B4 & B5 & B6 & B7 & B8 & B9 & B10).
    exists n'. split; auto. repeat split; auto.
  - apply (wt_nodup _ _ W).
  - intros i n' p H P. destruct (I _ _ H) as (n & A & B1 & B2 & B3 & B4 & B5 & B6 & B7 & B8 & B9 & B10).
    destruct (wt_parent _ _ W i n p) as (np & N1 & N2 & N3); auto. { congruence. }
    destruct (S _ _ N1) as (np' & C & D1 & D2 & D3 & D4 & D5 & D6 & D7 & D8 & D9 & D10). exists np'. split; auto.
    rewrite B1, D1, D9. auto.
  - intros e n' H. destruct (I _ _ H) as (n & A & B1 & B2 & B3 & B4 & B5 & B6 & B7 & B8 & B9 & B10).
    destruct (wt_attrs _ _ W _ _ A) as (X & Y & Z). rewrite B9, B1. split; auto. split; auto.
    intros a Ia. destruct (Z _ Ia) as (na & N1 & N2 & N3). destruct (S _ _ N1) as (na' & C & D1 & D2 & _).
    exists na'. repeat split; congruence.
  - intros i [n' H]. destruct (I _ _ H) as (n & A & _). eapply rooted_ext; [|apply (wt_rooted _ _ W); exists n; eauto].
    intros j m _ Hj. destruct (S _ _ Hj) as (m' & C & D1 & D2 & _). eauto.
Qed.

Lemma same_spent : forall n n', struct_eq n n' -> (spent n' <-> spent n).
Proof. intros n n' (B1 & B2 & B3 & B4 & B5 & B6 & B7 & B8 & B9 & B10). unfold spent. rewrite B1, B2, B8. tauto. Qed.

Lemma same_wfO : forall h h' ch, same_struct h h' -> wfO h ch -> wfO h' ch.
Proof.
  intros h h' ch SS W. pose proof (same_struct_inv _ _ SS) as I. destruct SS as [SN S].
  constructor.
  - intros i n' H T. destruct (I _ _ H) as (n & A & B1 & B2 & B3 & B4 & B5 & B6 & B7 & B8 & B9 & B10).
    rewrite B7, B2, B8, B10. apply (wo_doc _ _ W _ _ A). congruence.
  - intros i n' H T. destruct (I _ _ H) as (n & A & B1 & B2 & B3 & B4 & B5 & B6 & B7 & B8 & B9 & B10).
    rewrite B10. apply (wo_nondoc _ _ W _ _ A). congruence.
  - intros d nd' i H J. destruct (I _ _ H) as (n & A & B1 & B2 & B3 & B4 & B5 & B6 & B7 & B8 & B9 & B10).
    rewrite B10 in J. destruct (wo_pend _ _ W _ _ _ A J) as (m & M1 & M2 & M3). destruct (S _ _ M1) as (m' & C & D1 & D2 & D3 & D4 & D5 & D6 & D7 & D8 & _).
    exists m'. repeat split; congruence.
  - intros i n' H P. destruct (I _ _ H) as (n & A & B1 & B2 & B3 & B4 & B5 & B6 & B7 & B8 & B9 & B10).
    destruct (wo_pending _ _ W _ _ A) as (X & d & nd & Y1 & Y2 & Y3). { congruence. }
    split; [congruence|]. destruct (S _ _ Y2) as (m' & C & D1 & D2 & D3 & D4 & D5 & D6 & D7 & D8 & D9 & D10).
    exists d, m'. split; [congruence|]. split; auto. rewrite D10. auto.
  - intros i n' d H O. destruct (I _ _ H) as (n & A & Q). assert (Q' := Q). destruct Q as (B1 & B2 & B3 & B4 & B5 & B6 & B7 & B8 & B9 & B10).
    destruct (wo_owner _ _ W i n d A) as [(nd & X & Y)|[X Y]]. { congruence. }
    + left. destruct (S _ _ X) as (m' & C & D1 & _). exists m'. split; congruence.
    + right. split; auto. apply (same_spent _ _ Q'). auto.
  - intros i n' H O. destruct (I _ _ H) as (n & A & B1 & B2 & B3 & B4 & B5 & B6 & B7 & B8 & B9 & B10).
    destruct (wo_noowner _ _ W _ _ A). { congruence. } split; congruence.
  - intros i n' p np' H P H'. destruct (I _ _ H) as (n & A & B1 & B2 & B3 & B4 & B5 & B6 & B7 & B8 & B9 & B10).
    destruct (I _ _ H') as (m & C & D1 & D2 & D3 & D4 & D5 & D6 & D7 & D8 & D9 & D10).
    rewrite B7, D7. eapply (wo_child _ _ W); eauto. congruence.
  - intros i n' d H P T O. destruct (I _ _ H) as (n & A & Q). assert (Q' := Q). destruct Q as (B1 & B2 & B3 & B4 & B5 & B6 & B7 & B8 & B9 & B10).
    destruct (wo_top _ _ W i n d A) as [X|[X Y]]; try congruence.
    + left; congruence.
    + right. split; auto. apply (same_spent _ _ Q'). auto.
Qed.

(** References may go up. *)
Lemma same_wfR : forall h h' ch, same_struct h h' ->
  (forall j n n', h j = Some n -> h' j = Some n' -> (n_ref n <= n_ref n')%N) -> wfR h ch -> wfR h' ch.
Proof.
  intros h h' ch SS RF W. pose proof (same_struct_inv _ _ SS) as I. constructor.
  - intros i n' H P T. destruct (I _ _ H) as (n & A & B1 & B2 & _). specialize (RF _ _ _ A H).
    pose proof (wr_top _ _ W i n A). rewrite B1 in T. rewrite B2 in P. specialize (H0 P T). lia.
  - intros i n' H T. destruct (I _ _ H) as (n & A & B1 & B2 & B3 & B4 & B5 & B6 & B7 & B8 & B9 & B10). specialize (RF _ _ _ A H).
    destruct (wr_doc _ _ W i n A) as [X|[X Y]]. { congruence. } { left. lia. } right. split; auto. congruence.
Qed.

Lemma struct_eq_ref_up : forall n, struct_eq n (ref_up n).
Proof. intros. repeat split. Qed.

Definition no_wrap (n : node) : Prop := (n_ref n + 1 < two32)%N.

Lemma ref_up_val : forall n, no_wrap n -> n_ref (ref_up n) = (n_ref n + 1)%N.
Proof. intros n H. unfold ref_up. cbn [n_ref set_ref]. unfold u32. apply N.mod_small. exact H. Qed.

Lemma ref_up_wf : forall s ch i n, wf s ch -> s_heap s i = Some n -> no_wrap n ->
  wf (withh s (hmod (s_heap s) i ref_up)) ch.
Proof.
  intros s ch i n (WL & WT & WO & WR) H NW. pose proof (same_struct_hmod (s_heap s) i ref_up struct_eq_ref_up) as SS.
  unfold wf. rewrite withh_heap, withh_nxt. split; [eapply same_wfL; eauto|]. split; [eapply same_wfT; eauto|].
  split; [eapply same_wfO; eauto|]. eapply same_wfR; eauto.
  intros j m m' A B. erewrite hmod_get in B by eauto. inversion B; subst m'. destruct (Nat.eqb_spec j i); [|lia].
  subst. assert (m = n) by congruence; subst. rewrite ref_up_val; auto. lia.
Qed.

(** Child maps are only used pointwise. *)
Lemma wfT_ch_ext : forall h ch ch', (forall j, ch j = ch' j) -> wfT h ch -> wfT h ch'.
Proof.
  intros h ch ch' E W. constructor; intros; try rewrite <- !E in *; eauto using wt_dead, wt_ends, wt_seg, wt_nodup, wt_attrs, wt_rooted.
  destruct (wt_parent _ _ W _ _ _ H H0) as (np & A & B & C). exists np. split; auto.
Qed.
Lemma wfO_ch_ext : forall h ch ch', (forall j, ch j = ch' j) -> wfO h ch -> wfO h ch'.
Proof.
  intros h ch ch' E W. constructor; intros; try rewrite <- !E in *; eauto using wo_doc, wo_nondoc, wo_pend, wo_pending, wo_owner, wo_noowner, wo_child, wo_top.
Qed.
Lemma wfR_ch_ext : forall h ch ch', (forall j, ch j = ch' j) -> wfR h ch -> wfR h ch'.
Proof.
  intros h ch ch' E W. constructor; intros; try rewrite <- !E in *; eauto using wr_top, wr_doc.
Qed.
Lemma wf_ch_ext : forall s ch ch', (forall j, ch j = ch' j) -> wf s ch -> wf s ch'.
Proof. intros s ch ch' E (A & B & C & D). split; [auto|]. split; [|split]; [eapply wfT_ch_ext|eapply wfO_ch_ext|eapply wfR_ch_ext]; eauto. Qed.

(** The invariant ignores the event log. *)
Lemma wf_addlog : forall s ch l, wf s ch -> wf (addlog s l) ch.
Proof. intros s ch l H. exact H. Qed.
