(** One edit of a child list -- replace the segment [out] of the children of [p]
    by the nodes [ins] -- preserves the invariant.  Insertion, removal and
    replacement are all instances. *)
From Coq Require Import List Arith NArith Bool Lia ZifyBool ZifyNat ZifyN.
From Verif Require Import Base HeapModel HeapSpec HeapInv HeapExec HeapTree.
Import ListNotations.

Definition mem (j : id) (l : list id) : bool := existsb (Nat.eqb j) l.
Lemma mem_in : forall j l, mem j l = true <-> In j l.
Proof. apply mem_id_in. Qed.
Lemma mem_notin : forall j l, mem j l = false <-> ~ In j l.
Proof. intros. rewrite <- mem_in. destruct (mem j l); split; congruence. Qed.

(** [f]: fragment emptied by the edit; [gone]: node leaving the pending list. *)
Inductive mode (h : heap) (ch : id -> list id) (p : id) : list id -> option id -> option id -> Prop :=
| ModeNone : mode h ch p [] None None
| ModeOne c n : h c = Some n -> n_parent n = None -> mode h ch p [c] None (Some c)
| ModeFrag g n : h g = Some n -> n_type n = FRAGMENT -> n_parent n = None -> g <> p -> mode h ch p (ch g) (Some g) (Some g).

Definition splice_ch (ch : id -> list id) (p : id) (l : list id) (f : option id) (j : id) : list id :=
  if Nat.eqb j p then l else if oid_eqb f (Some j) then [] else ch j.

Definition rm_opt (o : option id) (l : list id) : list id :=
  match o with Some x => remove_id x l | None => l end.

(** Fields no tree edit touches. *)
Definition data_eq (n n' : node) : Prop :=
  n_name n' = n_name n /\ n_value n' = n_value n /\ n_ns n' = n_ns n /\ n_prefix n' = n_prefix n /\
  n_ref n' = n_ref n /\ n_classes n' = n_classes n /\ n_ro n' = n_ro n.

(** The fields after the edit. *)
Record spliced (h h' : heap) (p d : id) (a out b ins : list id) (f gone : option id) : Prop := mkSpliced {
  sp_none : forall j, h j = None -> h' j = None;
  sp_some : forall j n, h j = Some n -> exists n', h' j = Some n' /\
    n_type n' = n_type n /\ n_attrs n' = n_attrs n /\ 
    n_parent n' = (if mem j out then None else if mem j ins then Some p else n_parent n) /\
    n_first n' = (if Nat.eqb j p then hd_error (a ++ ins ++ b) else if oid_eqb f (Some j) then None else n_first n) /\
    n_last n' = (if Nat.eqb j p then last_error (a ++ ins ++ b) else if oid_eqb f (Some j) then None else n_last n) /\
    (mem j out = false ->
     n_prev n' = (if oid_eqb (hd_error ins) (Some j) then last_error a
                  else if oid_eqb (hd_error b) (Some j) then last_error (a ++ ins) else n_prev n) /\
     n_next n' = (if oid_eqb (last_error ins) (Some j) then hd_error b
                  else if oid_eqb (last_error a) (Some j) then hd_error (ins ++ b) else n_next n)) /\
    n_owner n' = (if mem j ins then Some d else n_owner n) /\
    n_pending n' = (if mem j out then true else if oid_eqb gone (Some j) then false else n_pending n) /\
    n_pend n' = (if Nat.eqb j d then rm_opt gone (n_pend n) ++ out else n_pend n);
  sp_data : forall j n n', h j = Some n -> h' j = Some n' -> data_eq n n' /\
    (mem j out = true -> n_prev n' = None /\ n_next n' = None)
}.

Lemma anc_child : forall h ch, wfT h ch -> forall r nr p, h r = Some nr -> n_type nr <> ELEMENT ->
  anc h r p -> r <> p -> exists c, In c (ch r) /\ anc h c p.
Proof.
  intros h ch WT r nr p Hr TR AN. induction AN; intros NE; [congruence|].
  destruct (Nat.eq_dec r p).
  - subst. exists i. split; [|constructor].
    destruct (wt_parent _ _ WT _ _ _ H H0) as (m & M1 & M2 & M3). assert (m = nr) by congruence; subst.
    destruct (ntype_eqb (n_type n) ATTRIBUTE) eqn:TA.
    + apply ntype_eqb_eq in TA. specialize (M3 TA). destruct (wt_attrs _ _ WT _ _ Hr) as (_ & X & _).
      exfalso. apply TR. apply X. intros Y. rewrite Y in M3. destruct M3.
    + apply ntype_eqb_neq in TA. apply M2; auto.
  - destruct IHAN as (c & C1 & C2); auto. exists c. split; auto. econstructor; eauto.
Qed.

Section Splice.
  Variables (h h' : heap) (ch : id -> list id) (p d : id) (a out b ins : list id) (f gone : option id) (np : node).
  Hypothesis WT : wfT h ch.
  Hypothesis CH : ch p = a ++ out ++ b.
  Hypothesis Hp : h p = Some np.
  Hypothesis MO : mode h ch p ins f gone.
  Hypothesis SP : spliced h h' p d a out b ins f gone.
  Hypothesis PERM : forall c, In c ins -> exists n, h c = Some n /\ n_type n <> ATTRIBUTE /\
     type_permitted (n_type np) (n_type n) = true.
  Hypothesis ACY : forall c, In c ins -> ~ anc h c p.

  Let ch' := splice_ch ch p (a ++ ins ++ b) f.

  Lemma sp_inv : forall j n', h' j = Some n' -> exists n, h j = Some n /\
    n_type n' = n_type n /\ n_attrs n' = n_attrs n /\ 
    n_parent n' = (if mem j out then None else if mem j ins then Some p else n_parent n) /\
    n_first n' = (if Nat.eqb j p then hd_error (a ++ ins ++ b) else if oid_eqb f (Some j) then None else n_first n) /\
    n_last n' = (if Nat.eqb j p then last_error (a ++ ins ++ b) else if oid_eqb f (Some j) then None else n_last n) /\
    (mem j out = false ->
     n_prev n' = (if oid_eqb (hd_error ins) (Some j) then last_error a
                  else if oid_eqb (hd_error b) (Some j) then last_error (a ++ ins) else n_prev n) /\
     n_next n' = (if oid_eqb (last_error ins) (Some j) then hd_error b
                  else if oid_eqb (last_error a) (Some j) then hd_error (ins ++ b) else n_next n)) /\
    n_owner n' = (if mem j ins then Some d else n_owner n) /\
    n_pending n' = (if mem j out then true else if oid_eqb gone (Some j) then false else n_pending n) /\
    n_pend n' = (if Nat.eqb j d then rm_opt gone (n_pend n) ++ out else n_pend n).
  Proof.
    intros j n' H. destruct (h j) as [n|] eqn:E.
    - destruct (sp_some _ _ _ _ _ _ _ _ _ _ SP _ _ E) as (m & A & B). 
      assert (m = n') by congruence; subst. exists n. split; auto.
    - rewrite (sp_none _ _ _ _ _ _ _ _ _ _ SP _ E) in H. discriminate.
  Qed.

  Lemma old_child : forall c, In c (a ++ out ++ b) -> exists n, h c = Some n /\ n_type n <> ATTRIBUTE /\ n_parent n = Some p.
  Proof.
    intros c I. rewrite <- CH in I. destruct (wt_child _ _ WT _ _ I) as (n & _ & A & _ & B & C & _). eauto.
  Qed.

  Lemma ins_parent : forall c n, In c ins -> h c = Some n -> n_parent n <> Some p.
  Proof.
    intros c n I Hc. inversion MO; subst; simpl in I.
    - destruct I.
    - destruct I as [<-|[]]. congruence.
    - destruct (wt_child _ _ WT _ _ I) as (m & _ & A & _ & B & C & _). congruence.
  Qed.

  Lemma ins_not_old : forall c, In c ins -> ~ In c (a ++ out ++ b).
  Proof.
    intros c I J. destruct (old_child _ J) as (n & A & B & C). exact (ins_parent _ _ I A C).
  Qed.

  Lemma ins_nodup : NoDup ins.
  Proof. inversion MO; subst; [constructor| |apply (wt_nodup _ _ WT)]. constructor; auto. constructor. Qed.

  Lemma nodup_old : NoDup (a ++ out ++ b).
  Proof. rewrite <- CH. apply (wt_nodup _ _ WT). Qed.

  Lemma in_ab : forall c, In c (a ++ b) -> In c (a ++ out ++ b) /\ ~ In c out.
  Proof.
    intros c I. pose proof nodup_old as ND. apply NoDup_app_inv in ND. destruct ND as (N1 & N2 & N3).
    apply NoDup_app_inv in N2. destruct N2 as (N4 & N5 & N6).
    apply in_app_or in I. split.
    - destruct I; apply in_or_app; auto. right. apply in_or_app; auto.
    - intros J. destruct I as [I|I].
      + apply (N3 _ I). apply in_or_app; auto.
      + exact (N6 _ J I).
  Qed.

  Lemma nodup_new : NoDup (a ++ ins ++ b).
  Proof.
    pose proof nodup_old as ND. apply NoDup_app_inv in ND. destruct ND as (N1 & N2 & N3).
    apply NoDup_app_inv in N2. destruct N2 as (N4 & N5 & N6).
    apply NoDup_app; auto.
    - apply NoDup_app; auto. { apply ins_nodup. }
      intros x I J. apply (ins_not_old _ I). apply in_or_app. right. apply in_or_app; auto.
    - intros x I J. apply in_app_or in J. destruct J as [J|J].
      + apply (ins_not_old _ J). apply in_or_app; auto.
      + apply (N3 _ I). apply in_or_app; auto.
  Qed.

  Lemma not_mem_ins : forall c, In c (a ++ out ++ b) -> mem c ins = false.
  Proof. intros c I. apply mem_notin. intros J. exact (ins_not_old _ J I). Qed.

  Lemma not_hd : forall (l : list id) c, ~ In c l -> oid_eqb (hd_error l) (Some c) = false.
  Proof. intros l c N. apply oid_eqb_neq. intros E. apply N. apply hd_error_in; auto. Qed.
  Lemma not_last : forall (l : list id) c, ~ In c l -> oid_eqb (last_error l) (Some c) = false.
  Proof. intros l c N. apply oid_eqb_neq. intros E. apply N. apply last_error_in; auto. Qed.

  Lemma seg_new_a : seg h' p None a (hd_error (ins ++ b)).
  Proof.
    pose proof nodup_new as ND. apply NoDup_app_inv in ND. destruct ND as (N1 & N2 & N3).
    pose proof (wt_seg _ _ WT p) as S. rewrite CH in S. apply seg_app in S. destruct S as [S _].
    eapply seg_move with (pv' := None) (nx' := hd_error (ins ++ b)); eauto.
    intros c n I Hc. destruct (in_ab c) as [I1 I2]. { apply in_or_app; auto. }
    destruct (sp_some _ _ _ _ _ _ _ _ _ _ SP _ _ Hc) as (n' & A & B1 & B2 & B3 & B4 & B5 & B6 & _).
    apply mem_notin in I2. destruct (B6 I2) as [C1 C2]. rewrite I2 in B3. rewrite (not_mem_ins _ I1) in B3.
    exists n'. destruct (old_child _ I1) as (m & D1 & D2 & D3). assert (m = n) by congruence; subst.
    split; auto. split; auto. split; [congruence|].
    assert (Q1 : ~ In c ins). { intros J. apply (N3 _ I). apply in_or_app; auto. }
    assert (Q2 : ~ In c b). { intros J. apply (N3 _ I). apply in_or_app; auto. }
    rewrite (not_hd _ _ Q1), (not_hd _ _ Q2) in C1. rewrite (not_last _ _ Q1) in C2. split.
    - destruct (oid_eqb (hd_error a) (Some c)) eqn:E; auto. apply oid_eqb_eq in E.
      destruct a as [|x r]; inversion E; subst. destruct S as [(m & M1 & M2 & M3 & M4 & M5) _]. congruence.
    - rewrite C2. reflexivity.
  Qed.

  Lemma seg_new_b : seg h' p (last_error (a ++ ins)) b None.
  Proof.
    pose proof nodup_new as ND. rewrite app_assoc in ND. apply NoDup_app_inv in ND. destruct ND as (N1 & N2 & N3).
    pose proof (wt_seg _ _ WT p) as S. rewrite CH in S. rewrite app_assoc in S. apply seg_app in S. destruct S as [_ S].
    eapply seg_move with (pv' := last_error (a ++ ins)) (nx' := None); eauto.
    intros c n I Hc. destruct (in_ab c) as [I1 I2]. { apply in_or_app; auto. }
    destruct (sp_some _ _ _ _ _ _ _ _ _ _ SP _ _ Hc) as (n' & A & B1 & B2 & B3 & B4 & B5 & B6 & _).
    apply mem_notin in I2. destruct (B6 I2) as [C1 C2]. rewrite I2 in B3. rewrite (not_mem_ins _ I1) in B3.
    exists n'. destruct (old_child _ I1) as (m & D1 & D2 & D3). assert (m = n) by congruence; subst.
    split; auto. split; auto. split; [congruence|].
    assert (Q1 : ~ In c ins). { intros J. apply (N3 c); auto. apply in_or_app; auto. }
    assert (Q2 : ~ In c a). { intros J. apply (N3 c); auto. apply in_or_app; auto. }
    rewrite (not_hd _ _ Q1) in C1. rewrite (not_last _ _ Q1), (not_last _ _ Q2) in C2. split.
    - rewrite C1. reflexivity.
    - destruct (oid_eqb (last_error b) (Some c)) eqn:E; auto. apply oid_eqb_eq in E.
      destruct (last_error_split _ _ _ E) as [l' ->]. apply seg_app in S.
      destruct S as [_ [(m & M1 & M2 & M3 & M4 & M5) _]]. congruence.
  Qed.

  Lemma seg_new_ins : seg h' p (last_error a) ins (hd_error b).
  Proof.
    assert (X : forall c n, In c ins -> h c = Some n ->
      exists n', h' c = Some n' /\ n_type n' = n_type n /\ n_parent n' = Some p /\
       n_prev n' = (if oid_eqb (hd_error ins) (Some c) then last_error a else n_prev n) /\
       n_next n' = (if oid_eqb (last_error ins) (Some c) then hd_error b else n_next n)).
    { intros c n I Hc. destruct (sp_some _ _ _ _ _ _ _ _ _ _ SP _ _ Hc) as (n' & A & B1 & B2 & B3 & B4 & B5 & B6 & _).
      assert (I2 : mem c out = false).
      { apply mem_notin. intros J. apply (ins_not_old _ I). apply in_or_app. right. apply in_or_app; auto. }
      destruct (B6 I2) as [C1 C2]. rewrite I2 in B3. apply mem_in in I as I'. rewrite I' in B3.
      exists n'. split; auto. split; auto. split; auto.
      assert (Q1 : ~ In c a). { intros J. apply (ins_not_old _ I). apply in_or_app; auto. }
      assert (Q2 : ~ In c b). { intros J. apply (ins_not_old _ I). apply in_or_app. right. apply in_or_app; auto. }
      rewrite (not_hd _ _ Q2) in C1. rewrite (not_last _ _ Q1) in C2. auto. }
    clear - X MO WT PERM. inversion MO; subst.
    - simpl. auto.
    - destruct (PERM c) as (m & A & B & C); [left; auto|].
      assert (m = n) by congruence; subst.
      destruct (X c n) as (n' & A1 & A2 & A3 & A4 & A5); [left; auto|auto|].
      simpl hd_error in A4. rewrite oid_eqb_refl in A4. unfold last_error in A5. simpl in A5. rewrite Nat.eqb_refl in A5.
      simpl. split; auto. exists n'. rewrite A2. auto 10.
    - eapply seg_move; [apply (wt_nodup _ _ WT)|exact X|apply (wt_seg _ _ WT)].
  Qed.

  Lemma seg_new : seg h' p None (a ++ ins ++ b) None.
  Proof.
    apply seg_app. split.
    - pose proof seg_new_a as S. destruct (hd_error (ins ++ b)); auto.
    - apply seg_app. split.
      + pose proof seg_new_ins as S. destruct (hd_error b); destruct (last_error a); auto.
      + pose proof seg_new_b as S. rewrite last_error_app2 in S.
        destruct (last_error ins); [auto|]. destruct (last_error a); auto.
  Qed.

  Lemma seg_others : forall q, q <> p -> f <> Some q -> seg h' q None (ch q) None.
  Proof.
    intros q NP NF. eapply seg_ext; [|apply (wt_seg _ _ WT)].
    intros c n I Hc. destruct (wt_child _ _ WT _ _ I) as (m & _ & A & _ & B & C & _).
    assert (m = n) by congruence; subst m.
    assert (J : ~ In c (a ++ out ++ b)). { intros J. destruct (old_child _ J) as (m & A' & _ & C'). congruence. }
    assert (K : ~ In c ins).
    { intros K. inversion MO; subst; simpl in K.
      - destruct K.
      - destruct K as [<-|[]]. congruence.
      - apply NF. f_equal. eapply wt_disjoint; eauto. }
    assert (Ka : ~ In c a) by (intros Q; apply J; apply in_or_app; auto).
    assert (Ko : ~ In c out) by (intros Q; apply J; apply in_or_app; right; apply in_or_app; auto).
    assert (Kb : ~ In c b) by (intros Q; apply J; apply in_or_app; right; apply in_or_app; auto).
    destruct (sp_some _ _ _ _ _ _ _ _ _ _ SP _ _ Hc) as (n' & A' & B1 & B2 & B3 & B4 & B5 & B6 & _).
    exists n'. split; auto. apply mem_notin in Ko as Ko'. apply mem_notin in K as K'.
    rewrite Ko', K' in B3. destruct (B6 Ko') as [C1 C2].
    rewrite (not_hd _ _ K), (not_hd _ _ Kb) in C1. rewrite (not_last _ _ K), (not_last _ _ Ka) in C2.
    repeat split; auto.
  Qed.

  Lemma p_not_ins : ~ In p ins.
  Proof. intros I. apply (ACY _ I). constructor. Qed.

  Lemma p_not_out : ~ In p out.
  Proof.
    intros I. destruct (old_child p) as (n & A & B & C). { apply in_or_app. right. apply in_or_app; auto. }
    refine (anc_proper_neq h p n p p _ A C (anc_refl h p) eq_refl). apply (wt_rooted _ _ WT). exists n; auto.
  Qed.

  Lemma rooted_p : rooted h' p.
  Proof.
    apply rooted_ext with (h := h).
    - intros j n J Hj. destruct (sp_some _ _ _ _ _ _ _ _ _ _ SP _ _ Hj) as (n' & A' & B1 & B2 & B3 & _).
      exists n'. split; auto. rewrite B3.
      assert (Q1 : mem j ins = false). { apply mem_notin. intros I. exact (ACY _ I J). }
      assert (Q2 : mem j out = false).
      { apply mem_notin. intros I. destruct (old_child j) as (m & A & B & C). { apply in_or_app. right. apply in_or_app; auto. }
        refine (anc_proper_neq h j m p j _ A C J eq_refl). apply (wt_rooted _ _ WT). exists m; auto. }
      rewrite Q1, Q2. auto.
    - apply (wt_rooted _ _ WT). exists np; auto.
  Qed.

  Lemma splice_wfT : wfT h' ch'.
  Proof.
    unfold ch', splice_ch. constructor.
    - intros i Hi. destruct (h i) as [n|] eqn:E.
      { destruct (sp_some _ _ _ _ _ _ _ _ _ _ SP _ _ E) as (n' & A & _). congruence. }
      destruct (Nat.eqb_spec i p); [congruence|]. rewrite (wt_dead _ _ WT _ E). destruct (oid_eqb f (Some i)); auto.
    - intros q n' Hq. destruct (sp_inv _ _ Hq) as (n & A & B1 & B2 & B3 & B4 & B5 & _).
      rewrite B4, B5. destruct (Nat.eqb q p); auto. destruct (oid_eqb f (Some q)); auto.
      apply (wt_ends _ _ WT); auto.
    - intros q. destruct (Nat.eqb_spec q p). { subst. apply seg_new. }
      destruct (oid_eqb f (Some q)) eqn:E. { simpl; auto. }
      apply oid_eqb_neq in E. apply seg_others; auto.
    - intros q. destruct (Nat.eqb_spec q p). { apply nodup_new. }
      destruct (oid_eqb f (Some q)). { constructor. } apply (wt_nodup _ _ WT).
    - intros i n' q Hi Pi. destruct (sp_inv _ _ Hi) as (n & A & B1 & B2 & B3 & _). rewrite B3 in Pi.
      destruct (mem i out) eqn:Mo; [discriminate|]. apply mem_notin in Mo. rewrite B1.
      destruct (mem i ins) eqn:Mi.
      + inversion Pi; subst q. destruct (sp_some _ _ _ _ _ _ _ _ _ _ SP _ _ Hp) as (np' & A' & B1' & _).
        exists np'. split; auto. apply mem_in in Mi. destruct (PERM _ Mi) as (m & C1 & C2 & C3).
        assert (m = n) by congruence; subst. rewrite Nat.eqb_refl. split; [|congruence].
        intros _. split; [|congruence]. apply in_or_app. right. apply in_or_app; auto.
      + apply mem_notin in Mi.
        destruct (wt_parent _ _ WT _ _ _ A Pi) as (nq & Q1 & Q2 & Q3).
        destruct (sp_some _ _ _ _ _ _ _ _ _ _ SP _ _ Q1) as (nq' & A' & B1' & B2' & _).
        exists nq'. split; auto. rewrite B1', B2'. split; auto.
        intros NT. destruct (Q2 NT) as [R1 R2]. split; auto.
        destruct (Nat.eqb_spec q p).
        * subst. rewrite CH in R1. apply in_app_or in R1. apply in_or_app. destruct R1 as [R1|R1]; auto.
          right. apply in_app_or in R1. apply in_or_app. destruct R1; [contradiction|auto].
        * destruct (oid_eqb f (Some q)) eqn:E; auto. apply oid_eqb_eq in E. exfalso.
          assert (MO2 := MO). rewrite E in MO2. inversion MO2; subst. contradiction.
    - intros e n' He. destruct (sp_inv _ _ He) as (n & A & B1 & B2 & B3 & _). rewrite B1, B2.
      destruct (wt_attrs _ _ WT _ _ A) as (W1 & W2 & W3). split; auto. split; auto.
      intros x I. destruct (W3 _ I) as (nx & X1 & X2 & X3).
      destruct (sp_some _ _ _ _ _ _ _ _ _ _ SP _ _ X1) as (nx' & A' & B1' & B2' & B3' & _).
      exists nx'. split; auto. split; [congruence|]. rewrite B3'.
      assert (mem x out = false).
      { apply mem_notin. intros J. destruct (old_child x) as (m & ? & ? & ?). { apply in_or_app. right. apply in_or_app; auto. } congruence. }
      assert (mem x ins = false).
      { apply mem_notin. intros J. destruct (PERM _ J) as (m & ? & ? & ?). congruence. }
      rewrite H, H0. auto.
    - intros i [n' Hi]. destruct (sp_inv _ _ Hi) as (n & A & _).
      assert (R : rooted h i) by (apply (wt_rooted _ _ WT); exists n; auto).
      clear n' Hi n A. induction R.
      + destruct (sp_some _ _ _ _ _ _ _ _ _ _ SP _ _ H) as (n' & A' & B1 & B2 & B3 & _).
        rewrite H0 in B3. destruct (mem i out); [apply (rooted_top h' i n'); auto|].
        destruct (mem i ins); [|apply (rooted_top h' i n'); auto].
        apply (rooted_step h' i n' p); auto. apply rooted_p.
      + destruct (sp_some _ _ _ _ _ _ _ _ _ _ SP _ _ H) as (n' & A' & B1 & B2 & B3 & _).
        rewrite H0 in B3. destruct (mem i out); [apply (rooted_top h' i n'); auto|].
        destruct (mem i ins); [|apply (rooted_step h' i n' p0); auto].
        apply (rooted_step h' i n' p); auto. apply rooted_p.
  Qed.

  (** Owners and pending lists. *)
  Variable nd : node.
  Hypothesis WO : wfO h ch.
  Hypothesis Hd : h d = Some nd.
  Hypothesis Td : n_type nd = DOCUMENT.
  Hypothesis Op : n_owner np = Some d.
  Hypothesis NS : ~ spent np.
  Hypothesis OI : forall c n, In c ins -> h c = Some n -> n_owner n = Some d \/ n_owner n = None.
  Hypothesis OG : forall g n, gone = Some g -> h g = Some n -> n_owner n = Some d \/ n_owner n = None.

  Lemma ins_types : forall c n, In c ins -> h c = Some n ->
    n_type n <> DOCUMENT /\ n_type n <> FRAGMENT /\ n_type n <> ATTRIBUTE.
  Proof.
    intros c n I Hc. destruct (PERM _ I) as (m & A & B & C). assert (m = n) by congruence; subst.
    destruct (n_type np); destruct (n_type n); simpl in C; try discriminate; repeat split; congruence.
  Qed.

  Lemma out_old : forall c, In c out -> exists n, h c = Some n /\ n_parent n = Some p /\ n_owner n = Some d /\
     n_pending n = false /\ n_type n <> DOCUMENT /\ n_type n <> FRAGMENT.
  Proof.
    intros c I. destruct (old_child c) as (n & A & B & C). { apply in_or_app. right. apply in_or_app; auto. }
    exists n. split; auto. split; auto. split; [rewrite (wo_child _ _ WO _ _ _ _ A C Hp); auto|].
    split.
    - destruct (n_pending n) eqn:E; auto. destruct (wo_pending _ _ WO _ _ A E). congruence.
    - destruct (wt_parent _ _ WT _ _ _ A C) as (m & Q1 & Q2 & _). destruct (Q2 B) as [_ Q3].
      split; intros E; rewrite E in Q3; destruct (n_type m); discriminate.
  Qed.

  Lemma gone_not_out : forall c, In c out -> gone <> Some c.
  Proof.
    intros c I E. destruct (out_old _ I) as (n & A & B & _).
    assert (MO2 := MO). rewrite E in MO2. inversion MO2; subst; congruence.
  Qed.

  Lemma ins_gone : forall c n, In c ins -> h c = Some n -> gone = Some c \/ n_parent n <> None.
  Proof.
    intros c n I Hc. inversion MO; subst; simpl in I.
    - destruct I.
    - destruct I as [<-|[]]; auto.
    - destruct (wt_child _ _ WT _ _ I) as (m & _ & A & _ & B & C & _). right. congruence.
  Qed.

  Lemma gone_ins : forall g n, gone = Some g -> h g = Some n -> In g ins \/ (n_type n = FRAGMENT /\ n_parent n = None /\ f = Some g /\ g <> p).
  Proof.
    intros g n E Hg. assert (MO2 := MO). rewrite E in MO2. inversion MO2; subst.
    - left; left; auto.
    - right. repeat split; congruence.
  Qed.

  Lemma in_pend' : forall i l, In i (rm_opt gone l ++ out) <-> (In i l /\ gone <> Some i) \/ In i out.
  Proof.
    intros i l. rewrite in_app_iff. unfold rm_opt. destruct gone as [g|].
    - rewrite remove_id_in. split; intros [I|I]; auto.
      + left. destruct I. split; auto. congruence.
      + left. destruct I. split; auto.
    - split; intros [I|I]; auto.
      + left. split; auto. discriminate.
      + left. tauto.
  Qed.

  Lemma owner_child_some : forall i n q nq, h i = Some n -> n_parent n = Some q -> h q = Some nq -> n_owner nq <> None.
  Proof.
    intros i n q nq Hi Pi Hq E. destruct (wo_noowner _ _ WO _ _ Hq E) as [TQ _].
    destruct (wt_parent _ _ WT _ _ _ Hi Pi) as (m & A & B & C). assert (m = nq) by congruence; subst.
    destruct (ntype_eqb (n_type n) ATTRIBUTE) eqn:TA.
    - apply ntype_eqb_eq in TA. specialize (C TA). destruct (wt_attrs _ _ WT _ _ A) as (_ & X & _).
      rewrite X in TQ; [discriminate|]. intros Y. rewrite Y in C. destruct C.
    - apply ntype_eqb_neq in TA. destruct (B TA) as [_ X]. rewrite TQ in X. discriminate.
  Qed.

  Lemma splice_wfO : wfO h' ch'.
  Proof.
    unfold ch', splice_ch. constructor.
    - intros i n' Hi Ti. destruct (sp_inv _ _ Hi) as (n & A & B1 & B2 & B3 & B4 & B5 & B6 & B7 & B8 & B9).
      rewrite B1 in Ti. destruct (wo_doc _ _ WO _ _ A Ti) as (D1 & D2 & D3 & D4).
      assert (Mi : mem i ins = false). { apply mem_notin. intros I. destruct (ins_types _ _ I A). congruence. }
      assert (Mo : mem i out = false). { apply mem_notin. intros I. destruct (out_old _ I) as (m & E1 & _ & _ & _ & E2 & _). congruence. }
      rewrite Mi in B7. rewrite Mi, Mo in B3. rewrite Mo in B8. rewrite B3, B7, B8, B9. split; auto. split; auto.
      split. { destruct (oid_eqb gone (Some i)); auto. }
      destruct (Nat.eqb_spec i d); auto. subst i.
      pose proof nodup_old as ND. apply NoDup_app_inv in ND. destruct ND as (_ & ND & _). apply NoDup_app_inv in ND.
      destruct ND as (ND & _ & _).
      apply NoDup_app; auto.
      + unfold rm_opt. destruct gone; auto. apply remove_id_nodup; auto.
      + intros x I J. assert (I' : In x (n_pend n)). { unfold rm_opt in I. destruct gone; auto. apply remove_id_in in I. tauto. }
        destruct (wo_pend _ _ WO _ _ _ A I') as (m & F1 & F2 & F3).
        destruct (out_old _ J) as (m' & G1 & _ & _ & G2 & _). congruence.
    - intros i n' Hi Ti. destruct (sp_inv _ _ Hi) as (n & A & B1 & B2 & B3 & B4 & B5 & B6 & B7 & B8 & B9).
      rewrite B1 in Ti. rewrite B9. destruct (Nat.eqb_spec i d); [|apply (wo_nondoc _ _ WO _ _ A Ti)].
      subst. congruence.
    - intros dd nd' i Hdd I. destruct (sp_inv _ _ Hdd) as (ndd & A & B1 & B2 & B3 & B4 & B5 & B6 & B7 & B8 & B9).
      rewrite B9 in I. destruct (Nat.eqb_spec dd d).
      + subst dd. assert (ndd = nd) by congruence; subst ndd. apply in_pend' in I. destruct I as [[I NG]|I].
        * destruct (wo_pend _ _ WO _ _ _ Hd I) as (n & C1 & C2 & C3).
          destruct (sp_some _ _ _ _ _ _ _ _ _ _ SP _ _ C1) as (n' & A' & _ & _ & _ & _ & _ & _ & B7' & B8' & _).
          exists n'. split; auto. rewrite B7', B8'. split. { destruct (mem i ins); auto. }
          destruct (mem i out); auto. apply oid_eqb_neq in NG. rewrite NG. auto.
        * destruct (out_old _ I) as (n & C1 & C2 & C3 & C4 & _).
          destruct (sp_some _ _ _ _ _ _ _ _ _ _ SP _ _ C1) as (n' & A' & _ & _ & _ & _ & _ & _ & B7' & B8' & _).
          exists n'. split; auto. rewrite B7', B8'. split. { destruct (mem i ins); auto. }
          apply mem_in in I. rewrite I. auto.
      + destruct (wo_pend _ _ WO _ _ _ A I) as (n0 & C1 & C2 & C3).
        destruct (sp_some _ _ _ _ _ _ _ _ _ _ SP _ _ C1) as (n' & A' & _ & _ & _ & _ & _ & _ & B7' & B8' & _).
        exists n'. split; auto. rewrite B7', B8'.
        assert (Mi : mem i ins = false). { apply mem_notin. intros J. destruct (OI _ _ J C1); congruence. }
        rewrite Mi. split; auto. destruct (mem i out); auto.
        destruct (oid_eqb gone (Some i)) eqn:E; auto. apply oid_eqb_eq in E. destruct (OG _ _ E C1); congruence.
    - intros i n' Hi Pi. destruct (sp_inv _ _ Hi) as (n & A & B1 & B2 & B3 & B4 & B5 & B6 & B7 & B8 & B9).
      destruct (sp_some _ _ _ _ _ _ _ _ _ _ SP _ _ Hd) as (nd' & Hd' & _ & _ & _ & _ & _ & _ & _ & _ & Pd').
      rewrite Nat.eqb_refl in Pd'.
      rewrite B8 in Pi. rewrite B3, B7. destruct (mem i out) eqn:Mo.
      + split; auto. exists d, nd'. apply mem_in in Mo. destruct (out_old _ Mo) as (m & E1 & E2 & E3 & _).
        assert (m = n) by congruence; subst. split. { destruct (mem i ins); auto. } split; auto.
        rewrite Pd'. apply in_pend'. auto.
      + destruct (oid_eqb gone (Some i)) eqn:E; [discriminate|]. apply oid_eqb_neq in E.
        destruct (wo_pending _ _ WO _ _ A Pi) as (Q1 & dd & ndd & Q2 & Q3 & Q4).
        assert (Mi : mem i ins = false). { apply mem_notin. intros J. destruct (ins_gone _ _ J A); congruence. }
        rewrite Mi. split; auto.
        destruct (sp_some _ _ _ _ _ _ _ _ _ _ SP _ _ Q3) as (ndd' & Hdd' & _ & _ & _ & _ & _ & _ & _ & _ & Pdd').
        exists dd, ndd'. split; auto. split; auto. rewrite Pdd'. destruct (Nat.eqb_spec dd d); auto.
        apply in_pend'. auto.
    - intros i n' dd Hi Oi. destruct (sp_inv _ _ Hi) as (n & A & B1 & B2 & B3 & B4 & B5 & B6 & B7 & B8 & B9).
      rewrite B7 in Oi. 
      assert (DOC : forall x nx, h x = Some nx -> n_type nx = DOCUMENT -> exists nx', h' x = Some nx' /\ n_type nx' = DOCUMENT).
      { intros x nx Hx Tx. destruct (sp_some _ _ _ _ _ _ _ _ _ _ SP _ _ Hx) as (nx' & X1 & X2 & _).
        exists nx'. split; congruence. }
      destruct (mem i ins) eqn:Mi. { inversion Oi; subst. left. eauto. }
      destruct (wo_owner _ _ WO _ _ _ A Oi) as [(nd0 & C1 & C2)|(C1 & C2)]. { left; eauto. }
      destruct C1 as (C3 & C4 & C5).
      destruct (Nat.eqb_spec i p). { subst. exfalso. apply NS. assert (n = np) by congruence. subst. repeat split; auto. }
      right. split.
      + assert (Mo : mem i out = false). { apply mem_notin. intros I. destruct (out_old _ I) as (m & E1 & _ & _ & _ & _ & E2). congruence. }
        rewrite Mo in B3, B8. try rewrite Mi in B3. repeat split; try congruence.
        rewrite B8. destruct (oid_eqb gone (Some i)); auto.
      + destruct (oid_eqb f (Some i)); auto.
    - intros i n' Hi Oi. destruct (sp_inv _ _ Hi) as (n & A & B1 & B2 & B3 & B4 & B5 & B6 & B7 & B8 & B9).
      rewrite B7 in Oi. destruct (mem i ins) eqn:Mi; [discriminate|].
      destruct (wo_noowner _ _ WO _ _ A Oi) as [E1 E2]. split; [congruence|]. rewrite B3, E2. destruct (mem i out); auto.
    - intros i n' q nq' Hi Pi Hq. destruct (sp_inv _ _ Hi) as (n & A & B1 & B2 & B3 & B4 & B5 & B6 & B7 & B8 & B9).
      destruct (sp_inv _ _ Hq) as (nq & A' & B1' & B2' & B3' & B4' & B5' & B6' & B7' & B8' & B9').
      rewrite B3 in Pi. destruct (mem i out); [discriminate|]. rewrite B7, B7'. destruct (mem i ins) eqn:Mi.
      + inversion Pi; subst q. pose proof p_not_ins as PI. apply mem_notin in PI. rewrite PI. congruence.
      + rewrite (wo_child _ _ WO _ _ _ _ A Pi A'). destruct (mem q ins) eqn:Mq; auto.
        apply mem_in in Mq. destruct (OI _ _ Mq A'); auto.
        exfalso. exact (owner_child_some _ _ _ _ A Pi A' H).
    - intros i n' dd Hi Pi Ti Oi. destruct (sp_inv _ _ Hi) as (n & A & B1 & B2 & B3 & B4 & B5 & B6 & B7 & B8 & B9).
      rewrite B3 in Pi. rewrite B1 in Ti. rewrite B7 in Oi. rewrite B8.
      destruct (mem i out) eqn:Mo; [left; auto|].
      destruct (mem i ins) eqn:Mi; [discriminate|]. 
      destruct (oid_eqb gone (Some i)) eqn:E.
      + apply oid_eqb_eq in E. destruct (gone_ins _ _ E A) as [G|(G1 & G2 & G3 & G4)].
        { apply mem_in in G. congruence. }
        right. split. { repeat split; try congruence. }
        apply Nat.eqb_neq in G4. rewrite G4. rewrite G3, oid_eqb_refl. auto.
      + destruct (wo_top _ _ WO _ _ _ A Pi Ti Oi) as [Q|[Q1 Q2]]; [left; auto|].
        right. destruct Q1 as (Q3 & Q4 & Q5). split. { repeat split; congruence. }
        destruct (Nat.eqb_spec i p). { subst. exfalso. apply NS. assert (n = np) by congruence. subst. repeat split; auto. }
        destruct (oid_eqb f (Some i)); auto.
  Qed.

  (** Reference counts. *)
  Hypothesis WR : wfR h ch.
  Hypothesis RP : n_type np = DOCUMENT -> (n_ref np > 0)%N.

  Lemma top_exists : forall i, rooted h i -> exists r n, anc h r i /\ h r = Some n /\ n_parent n = None.
  Proof.
    induction 1.
    - exists i, n. split; auto. constructor.
    - destruct IHrooted as (r & m & A & B & C). exists r, m. split; auto. econstructor; eauto.
  Qed.

  Lemma owner_root : forall r i, anc h r i -> forall n m, h i = Some n -> h r = Some m -> n_owner n = n_owner m.
  Proof.
    induction 1; intros n0 m Hi Hr. { congruence. }
    assert (n0 = n) by congruence; subst. destruct (wt_parent _ _ WT _ _ _ H H0) as (q & Hq & _).
    rewrite (wo_child _ _ WO _ _ _ _ H H0 Hq). eapply IHanc; eauto.
  Qed.

  (** What is kept alive by references, the nodes taken out apart. *)
  Lemma splice_refs :
    (forall i n', h' i = Some n' -> n_parent n' = None -> n_type n' <> DOCUMENT -> In i out \/ (n_ref n' > 0)%N) /\
    (forall i n', h' i = Some n' -> n_type n' = DOCUMENT -> (n_ref n' > 0)%N \/ (n_pend n' <> [] /\ ch' i = [])).
  Proof.
    assert (RF : forall j n n', h j = Some n -> h' j = Some n' -> n_ref n' = n_ref n).
    { intros j n n' A B. destruct (sp_data _ _ _ _ _ _ _ _ _ _ SP _ _ _ A B) as [Q _]. apply Q. }
    unfold ch', splice_ch. split.
    - intros i n' Hi Pi Ti. destruct (sp_inv _ _ Hi) as (n & A & B1 & B2 & B3 & _).
      rewrite (RF _ _ _ A Hi). rewrite B3 in Pi. destruct (mem i out) eqn:Mo.
      { apply mem_in in Mo. auto. }
      right. destruct (mem i ins); [discriminate|]. rewrite B1 in Ti. eapply (wr_top _ _ WR); eauto.
    - intros i n' Hi Ti. destruct (sp_inv _ _ Hi) as (n & A & B1 & B2 & B3 & B4 & B5 & B6 & B7 & B8 & B9).
      rewrite (RF _ _ _ A Hi). rewrite B1 in Ti. destruct (wr_doc _ _ WR _ _ A Ti) as [R|[R1 R2]]; auto.
      destruct (Nat.eqb_spec i p). { subst. assert (n = np) by congruence; subst. left. auto. }
      right. split.
      2:{ destruct (oid_eqb f (Some i)); auto. }
      rewrite B9. destruct (Nat.eqb_spec i d); auto. subst i.
      destruct (top_exists p) as (r & nr & T1 & T2 & T3). { apply (wt_rooted _ _ WT). exists np; auto. }
      assert (Or : n_owner nr = Some d). { rewrite <- (owner_root _ _ T1 _ _ Hp T2). auto. }
      assert (IR : In r (n_pend n) /\ gone <> Some r).
      { destruct (ntype_eqb (n_type nr) DOCUMENT) eqn:TR.
        - apply ntype_eqb_eq in TR. destruct (wo_doc _ _ WO _ _ T2 TR) as (X & _).
          assert (r = d) by congruence. subst r. exfalso.
          destruct (anc_child _ _ WT d n p A) as (c & C1 & _); auto; try congruence.
          rewrite R2 in C1. destruct C1.
        - apply ntype_eqb_neq in TR. destruct (wo_top _ _ WO _ _ _ T2 T3 TR Or) as [Q|[Q1 Q2]].
          + destruct (wo_pending _ _ WO _ _ T2 Q) as (_ & dd & ndd & Q3 & Q4 & Q5).
            assert (dd = d) by congruence; subst. assert (ndd = n) by congruence; subst.
            split; auto. intros G. destruct (gone_ins _ _ G T2) as [G1|(G1 & G2 & G3 & G4)].
            * exact (ACY _ G1 T1).
            * assert (MO2 := MO). rewrite G3 in MO2. inversion MO2; subst.
              destruct (anc_child _ _ WT r nr p T2) as (c & C1 & C2); auto; try congruence.
              exact (ACY _ C1 C2).
          + exfalso. destruct (Nat.eq_dec r p) as [->|NE].
            * assert (nr = np) by congruence; subst. auto.
            * destruct Q1 as (TF & _). destruct (anc_child _ _ WT r nr p T2) as (c & C1 & C2); auto; try congruence.
              rewrite Q2 in C1. destruct C1. }
      destruct IR as [I1 I2]. intros E.
      assert (X : In r (rm_opt gone (n_pend n) ++ out)) by (apply in_pend'; auto).
      rewrite E in X. destruct X.
  Qed.

  Hypothesis RO : forall c n, In c out -> h c = Some n -> (n_ref n > 0)%N.
  Lemma splice_wfR : wfR h' ch'.
  Proof.
    destruct splice_refs as [A B]. constructor; auto. intros i n' Hi Pi Ti.
    destruct (A _ _ Hi Pi Ti) as [I|]; auto. destruct (sp_inv _ _ Hi) as (n & Hn & _).
    destruct (sp_data _ _ _ _ _ _ _ _ _ _ SP _ _ _ Hn Hi) as [(_ & _ & _ & _ & Q & _) _]. rewrite Q. eapply RO; eauto.
  Qed.
End Splice.
