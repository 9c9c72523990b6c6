(** Taking an item of a collection out of the tree. *)
From Coq Require Import List Arith NArith ZArith Bool Lia ZifyBool ZifyNat ZifyN.
From Verif Require Import Base HeapModel HeapSpec HeapInv HeapExec HeapTree HeapInsert HeapFrame HeapCreate HeapOps HeapRemoveOp HeapAttrNode HeapUnref HistModel HistProofs TreeSpec TreeProofs TreeProofs3
  StringModel WalkModel WalkSpec WalkProofs WalkLists WalkFinds WalkReach ContentProofs ImportProofs HtmlModel HtmlSpec HtmlBase HtmlSelect.
Import ListNotations.
Local Open Scope dom_scope.

Lemma node_type_dec : forall a b : ntype, {a = b} + {a <> b}.
Proof. decide equality. Defined.

Definition drop_item (p x : id) : M st unit :=
  r <- try (remove_child p x) ;;
  match r with inl y => node_unref y ;;; node_unref x | inr y => node_unref x ;;; raise y end.

(** The fields a removal keeps. *)
Definition kept_fields (n n' : node) : Prop :=
  n_type n' = n_type n /\ n_name n' = n_name n /\ n_value n' = n_value n /\ n_ns n' = n_ns n /\ n_prefix n' = n_prefix n /\ n_attrs n' = n_attrs n.
Lemma kept_trans : forall a b c, kept_fields a b -> kept_fields b c -> kept_fields a c.
Proof. unfold kept_fields. intros a b c (A1&A2&A3&A4&A5&A6) (B1&B2&B3&B4&B5&B6). repeat split; congruence. Qed.
Lemma kept_ref : forall n r, kept_fields n (set_ref r n).
Proof. intros. repeat split. Qed.

Lemma anc_parents : forall h h' : heap, (forall j n' p, h' j = Some n' -> n_parent n' = Some p -> exists n, h j = Some n /\ n_parent n = Some p) ->
  forall a i, anc h' a i -> anc h a i.
Proof.
  intros h h' K a i A. induction A as [|i n' p H P A IH]; [constructor|]. destruct (K _ _ _ H P) as (n & B & C). eapply anc_step; eauto.
Qed.

Section Take.
  Variables (s s1 : st) (ch : id -> list id) (p x : id) (n : node).
  Hypothesis W : wf s ch.
  Hypothesis R : roomy s.
  Hypothesis Hx : s_heap s x = Some n.
  Hypothesis T : n_type n = ELEMENT.
  Hypothesis A : answered s (Some x) s1.
  Hypothesis LP : live (s_heap s) p.

  Lemma item_state : wf s1 ch /\ s_heap s1 x = Some (set_ref (n_ref n + 1) n) /\
    (forall j m, s_heap s j = Some m -> s_heap s1 j = Some (if Nat.eqb j x then set_ref (n_ref m + 1) m else m)) /\
    (forall j m, s_heap s1 j = Some m -> exists m0, s_heap s j = Some m0 /\ m = if Nat.eqb j x then set_ref (n_ref m0 + 1) m0 else m0).
  Proof.
    assert (B8 := R _ _ Hx). destruct (answered_wf _ _ _ _ _ W A Hx B8) as [W1 H1]. split; auto. split; auto. destruct A as (_ & _ & E). split; intros j m M.
    - rewrite E, M. destruct (Nat.eqb_spec j x) as [->|NJ]; [rewrite oid_refl|rewrite oid_other by auto]; reflexivity.
    - rewrite E in M. destruct (s_heap s j) as [m0|] eqn:M0; [|discriminate]. exists m0. split; auto.
      destruct (Nat.eqb_spec j x) as [->|NJ]; [rewrite oid_refl in M|rewrite oid_other in M by auto]; congruence.
  Qed.

  Lemma removal : exists t o, first_failure (remove_checks (s_heap s1) p x) o /\
    match o with
    | Some e => remove_child p x s1 = Exc e s1
    | None => exists h', remove_child p x s1 = Ok x (withh (addlog s1 (remove_log p x t)) h') /\
           wf (withh s1 h') (fun j => without x (ch j)) /\ edited (s_heap s1) h' None x
    end.
  Proof.
    destruct item_state as (W1 & H1 & K1 & _). pose proof W1 as (WL1 & WT1 & _).
    destruct (tree_exists _ _ _ WL1 WT1 x) as (t & Rt & Et). { eexists; exact H1. }
    destruct (remove_child_spec s1 ch p x W1) with (t := t) as (o & FF & Q); auto.
    - destruct LP as (np & Hp). eexists. apply K1. exact Hp.
    - eexists. split; [exact H1|]. cbn [n_type set_ref]. congruence.
    - eexists. split; [exact H1|]. pose proof (R _ _ Hx). unfold no_wrap. cbn [n_ref set_ref]. split; lia.
    - exists t, o. split; auto.
  Qed.

  Lemma take_refused : type_of (s_heap s) p <> Some DOCUMENT -> n_parent n <> Some p -> n_parent n <> None ->
    exists s', drop_item p x s1 = Exc NOT_FOUND_ERR s' /\ same_state s s'.
  Proof.
    intros TP NP PN. destruct item_state as (W1 & H1 & K1 & _). destruct removal as (t & o & FF & Q).
    assert (o = Some NOT_FOUND_ERR).
    { unfold remove_checks in FF. inversion FF as [|Q1 e1 r1 Y|Q1 e1 r1 o1 _ F1]; subst.
      { exfalso. destruct Y as [Y _]. apply TP. unfold type_of in *. destruct LP as (np & Hp). rewrite Hp. rewrite (K1 _ _ Hp) in Y. cbn in *. destruct (Nat.eqb p x); auto. }
      inversion F1 as [|Q2 e2 r2 Y|Q2 e2 r2 o2 Y F2]; subst; auto. exfalso. apply Y. unfold parent_of. rewrite H1. exact NP. }
    subst o. destruct (give_back _ _ _ _ _ W A Hx PN (R _ _ Hx)) as (s2 & E2 & SM).
    exists s2. split; auto. unfold drop_item. assert (TE : try (remove_child p x) s1 = Ok (inr NOT_FOUND_ERR) s1) by (unfold try; rewrite Q; reflexivity).
    step TE. step E2. reflexivity.
  Qed.

  Lemma take_ok : n_parent n = Some p -> type_of (s_heap s) p <> Some DOCUMENT -> ~ read_only (s_heap s) p ->
    exists s' ch', drop_item p x s1 = Ok tt s' /\ wf s' ch' /\ taken s x s'.
  Proof.
    intros PX TP NR. destruct item_state as (W1 & H1 & K1 & _). destruct removal as (t & o & FF & Q). pose proof W as (WL & WT & WO & WR). pose proof W1 as (WL1 & WT1 & _).
    assert (o = None).
    { destruct o as [e|]; auto. exfalso. unfold remove_checks in FF. destruct LP as (np & Hp). inversion FF as [|Q1 e1 r1 Y|Q1 e1 r1 o1 _ F1]; subst.
      { destruct Y as [Y _]. apply TP. unfold type_of in *. rewrite Hp. rewrite (K1 _ _ Hp) in Y. cbn in *. destruct (Nat.eqb p x); auto. }
      inversion F1 as [|Q2 e2 r2 Y|Q2 e2 r2 o2 _ F2]; subst. { apply Y. unfold parent_of. rewrite H1. exact PX. }
      inversion F2 as [|Q3 e3 r3 Y|Q3 e3 r3 o3 _ F3]; subst.
      { apply NR. eapply (read_only_back (s_heap s) (s_heap s1)); [| |exists np; auto|exact Y].
        - intros j m M. exists (if Nat.eqb j x then set_ref (n_ref m + 1) m else m). split; [apply K1; auto|]. destruct (Nat.eqb j x); auto.
        - apply (wf_parents _ _ W). }
      inversion F3. }
    subst o. destruct Q as (h2 & E2 & W2 & ED). set (s2 := withh (addlog s1 (remove_log p x t)) h2) in *. set (ch2 := fun q => without x (ch q)) in *.
    assert (W2' : wf s2 ch2) by exact W2. clear W2. pose proof W2' as (WL2 & WT2 & _). change (s_heap s2) with h2 in WT2.
    destruct (ed_some _ _ _ _ ED _ _ H1) as (n2 & Hx2 & F1 & F2 & F3 & F4 & F5 & F6 & F7 & F8 & F9 & F10 & F11). rewrite Nat.eqb_refl in F9. cbn [n_ref n_type set_ref] in *.
    assert (B8 := R _ _ Hx). 
    assert (PN : n_parent n2 = None).
    { destruct (n_parent n2) as [q|] eqn:PQ; auto. exfalso. destruct (wt_parent _ _ WT2 _ _ _ Hx2 PQ) as (nq & _ & Y & _).
      destruct (Y ltac:(congruence)) as [I _]. unfold ch2, without in I. apply filter_In in I. destruct I as [_ I]. rewrite Nat.eqb_refl in I. discriminate. }
    assert (G2 : forall j m, s_heap s j = Some m -> exists m2, h2 j = Some m2 /\ kept_fields m m2 /\ n_ref m2 = (if Nat.eqb j x then n_ref m + 2 else n_ref m)%N).
    { intros j m M. destruct (ed_some _ _ _ _ ED _ _ (K1 _ _ M)) as (m2 & M2 & X1 & X2 & X3 & X4 & X5 & X6 & X7 & X8 & X9 & _). exists m2. split; auto.
      destruct (Nat.eqb_spec j x); cbn [n_type n_name n_value n_ns n_prefix n_attrs n_ref set_ref] in *; (split; [repeat split; auto|]); lia. }
    assert (PAR : forall j m2 q, h2 j = Some m2 -> n_parent m2 = Some q -> exists m, s_heap s j = Some m /\ n_parent m = Some q).
    { intros j m2 q M2 PQ. destruct (wt_parent _ _ WT2 _ _ _ M2 PQ) as (nq & Hq & Y1 & Y2).
      destruct (s_heap s j) as [m|] eqn:M.
      2:{ exfalso. destruct A as (_ & _ & E). rewrite (ed_none _ _ _ _ ED j) in M2; [discriminate|]. rewrite E, M. reflexivity. }
      exists m. split; auto. destruct (G2 _ _ M) as (m2' & M2' & (X1 & _) & _). assert (m2' = m2) by congruence. subst m2'.
      destruct (node_type_dec (n_type m2) ATTRIBUTE) as [TA|TA].
      - pose proof (Y2 TA) as I. destruct (s_heap s q) as [mq|] eqn:MQ.
        2:{ exfalso. destruct A as (_ & _ & E). rewrite (ed_none _ _ _ _ ED q) in Hq; [discriminate|]. rewrite E, MQ. reflexivity. }
        destruct (G2 _ _ MQ) as (mq2 & MQ2 & (_&_&_&_&_&X6) & _). assert (mq2 = nq) by congruence. subst mq2. rewrite X6 in I.
        destruct (wt_attrs _ _ WT _ _ MQ) as (_ & _ & Z). destruct (Z j I) as (na & Z1 & Z2 & Z3). congruence.
      - destruct (Y1 TA) as [I _]. unfold ch2, without in I. apply filter_In in I. destruct I as [I _].
        destruct (wt_child _ _ WT _ _ I) as (a & b & A1 & A2 & A3 & A4 & _). congruence. }
    assert (TE : try (remove_child p x) s1 = Ok (inl x) s2) by (unfold try; rewrite E2; reflexivity).
    destruct (unref_spec s2 ch2 x n2 W2' Hx2) as (h3 & ch3 & E3 & W3 & Z). { lia. } { lia. }
    assert (C1 : (1 <? n_ref n2)%N = true) by (apply N.ltb_lt; lia). rewrite C1 in Z. cbn [orb] in Z. destruct Z as [-> ->].
    change (s_heap s2) with h2 in *. set (h3 := hmod h2 x ref_down) in *. set (s3 := withh s2 h3) in *.
    assert (Hx3 : h3 x = Some (ref_down n2)) by (unfold h3; rewrite hmod_same, Hx2; reflexivity).
    assert (RV : n_ref (ref_down n2) = (n_ref n + 1)%N) by (rewrite ref_down_val; lia).
    destruct (unref_spec s3 ch2 x (ref_down n2) W3 Hx3) as (h4 & ch4 & E4 & W4 & Z). { lia. } { lia. }
    assert (RUN : drop_item p x s1 = Ok tt (withh s3 h4)). { unfold drop_item. step TE. step E3. exact E4. }
    exists (withh s3 h4), ch4. split; auto. split; auto. pose proof W4 as (WL4 & WT4 & _). change (s_heap (withh s3 h4)) with h4 in WT4. change (s_heap s3) with h3 in Z.
    assert (PN3 : n_parent (ref_down n2) = None) by exact PN. rewrite PN3 in Z. cbn [is_none negb] in Z. rewrite orb_false_r, RV in Z.
    set (h5 := hmod h3 x ref_down) in *.
    assert (RV2 : n_ref (ref_down (ref_down n2)) = n_ref n) by (rewrite ref_down_val; lia).
    assert (G5 : forall j m, s_heap s j = Some m -> exists m5, h5 j = Some m5 /\ kept_fields m m5 /\ n_ref m5 = n_ref m).
    { intros j m M. destruct (G2 _ _ M) as (m2 & M2 & X & XR). unfold h5, h3. destruct (Nat.eqb_spec j x) as [->|NJ].
      - rewrite !hmod_same, M2. cbn [option_map]. eexists. split; [reflexivity|]. assert (m2 = n2) by congruence. subst m2. assert (m = n) by congruence. subst m. split; [exact X|exact RV2].
      - rewrite !hmod_other by auto. exists m2. split; auto. }
    assert (D : forall y, anc h5 x y -> anc (s_heap s) x y).
    { apply anc_parents. intros j m5 q M5 PQ. destruct (h2 j) as [m2|] eqn:M2.
      - apply (PAR j m2); auto. unfold h5, h3 in M5. destruct (Nat.eq_dec j x) as [->|NJ]; [|rewrite !hmod_other in M5 by auto; congruence].
        rewrite !hmod_same, M2 in M5. injection M5 as <-. exact PQ.
      - exfalso. unfold h5, h3, hmod in M5. rewrite M2 in M5. destruct (Nat.eqb j x); discriminate. }
    assert (LIST : forall q l, children (s_heap s) q l -> l = ch q).
    { intros q l CL. assert (LQ : live (s_heap s) q) by (destruct CL as (a & AA & _); exists a; auto). apply (children_det _ _ _ _ CL (ch_children _ _ WT q LQ)). }
    destruct (N.ltb_spec 1 (n_ref n + 1)) as [HELD|FREE].
    - destruct Z as [-> ->]. constructor.
      + eapply wf_linked; exact W4.
      + intros q l LQ CL. rewrite (LIST _ _ CL). apply (ch_children _ _ WT4 q LQ).
      + intros y m M _ _. destruct (G5 _ _ M) as (m5 & M5 & (X1&X2&X3&X4&X5&X6) & XR). exists m5. split; [exact M5|]. repeat (split; auto).
      + intros m M _. split.
        * exists (ref_down (ref_down n2)). change (s_heap (withh s3 h5)) with h5. split; [unfold h5; rewrite hmod_same, Hx3; reflexivity|]. split; [exact PN|]. assert (m = n) by congruence. subst m. exact RV2.
        * intros y (my & MY). destruct (G5 _ _ MY) as (m5 & M5 & _). exists m5. exact M5.
    - assert (TX : n_type (ref_down (ref_down n2)) <> DOCUMENT) by (change (n_type n2 <> DOCUMENT); congruence).
      assert (Hx5 : h5 x = Some (ref_down (ref_down n2))) by (unfold h5; rewrite hmod_same, Hx3; reflexivity).
      pose proof (re_gone _ _ _ _ _ Z x _ (dies_root _ _) Hx5 TX) as GX. constructor.
      + eapply wf_linked; exact W4.
      + intros q l LQ CL. rewrite (LIST _ _ CL). change (s_heap (withh s3 h4)) with h4 in *. pose proof (ch_children _ _ WT4 q LQ) as C4. destruct LQ as (mq & MQ).
        rewrite (re_ch _ _ _ _ _ Z q) in C4; [exact C4|congruence|congruence].
      + intros y m M NA DR. change (s_heap (withh s3 h4)) with h4. destruct (G5 _ _ M) as (m5 & M5 & (X1&X2&X3&X4&X5&X6) & XR).
        assert (ND : ~ dies h5 x y) by (intros Y; apply NA, D, dies_anc; auto).
        assert (NO : ~ orphaned h5 x y).
        { intros (my & q & Y1 & Y2 & _ & Y4). apply NA, D. eapply anc_step; [exact Y1|exact Y2|apply dies_anc; auto]. }
        destruct (node_type_dec (n_type m5) DOCUMENT) as [TD|TD].
        * destruct (re_doc _ _ _ _ _ Z _ _ M5 TD) as [[_ Y]|(m' & Y1 & Y2 & Y3 & Y4)].
          { exfalso. assert ((n_ref m > 0)%N) by (apply DR; congruence). lia. }
          rewrite Y4 in Y1; [|intros ->; apply NA; constructor|rewrite XR; apply DR; congruence].
          eexists. split; [exact Y1|]. cbn [n_type n_name n_value n_ns n_prefix n_attrs n_ref set_pend]. repeat (split; auto).
        * exists m5. split; [apply (re_keep _ _ _ _ _ Z _ _ ND NO M5 TD)|]. repeat (split; auto).
      + intros m M G. assert (m = n) by congruence. subst m. lia.
  Qed.
End Take.
