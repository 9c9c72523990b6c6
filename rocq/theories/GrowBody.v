(** insertRow on a table without rows that has a body. *)
From Coq Require Import List Arith NArith ZArith Bool Lia ZifyBool ZifyNat ZifyN.
From Verif Require Import Base HeapModel HeapSpec HeapInv HeapExec HeapTree HeapInsert HeapFrame HeapCreate HeapOps HeapLoops HeapRemoveOp HeapAttrNode HeapContent HeapUnref HistModel HistProofs TreeSpec TreeProofs TreeProofs3
  StringModel WalkModel WalkSpec WalkProofs WalkLists WalkFinds WalkReach ContentProofs ImportProofs HtmlModel HtmlSpec HtmlBase HtmlSelect HtmlTake HtmlRows HtmlTable HtmlInsert HtmlTables HtmlBodies PartSpec PartProofs GrowSpec GrowProofs.
Import ListNotations.
Local Open Scope dom_scope.

Lemma owner_up : forall h ch, wfO h ch -> (forall j n p, h j = Some n -> n_parent n = Some p -> live h p) -> forall a i, anc h a i -> live h i -> owner_of h i = owner_of h a.
Proof.
  intros h ch WO LV a i A. induction A as [|i n p H P A IH]; intros L; auto. pose proof (LV _ _ _ H P) as LP. rewrite <- (IH LP). destruct LP as (np & HP).
  unfold owner_of. rewrite H, HP. exact (wo_child _ _ WO _ _ _ _ H P HP).
Qed.

Section GrowIn.
  Variables (s : st) (ch : id -> list id) (e : id) (ne : node) (b : id) (k : list id).
  Hypothesis W : wf s ch.
  Hypothesis R : roomy s.
  Hypothesis He : s_heap s e = Some ne.
  Hypothesis TE : n_type ne = ELEMENT.
  Hypothesis RW : rows (s_heap s) e [].
  Hypothesis BW : items s_TBODY (s_heap s) e (b :: k).
  Hypothesis NR : ~ read_only (s_heap s) b.

  Lemma grow_in : forall index, (index = -1 \/ index = 0)%Z -> exists row s', table_insert_row e index s = Ok row s' /\ grown_in s e b row s'.
  Proof.
    intros index IX. pose proof W as (_ & WT & WO & _).
    destruct (item_parent s_TBODY s ch e (b :: k) b W BW) as (nb & HB & TB & PB & AB & NBE). { left; auto. }
    destruct (new_element s ch e ne s_TR W He TE) as (d & s0 & ED & EC & F0). set (row := s_nxt s) in *. pose proof (fe_wf _ _ _ _ _ _ F0) as W0.
    destruct (fe_keep _ _ _ _ _ _ F0 _ _ HB) as (nb0 & HB0 & P0 & A0 & _). pose proof P0 as (PT & _ & _ & _ & _ & PP & _ & _ & _ & _ & PO & PR).
    pose proof (fresh_roomy _ _ _ _ _ _ F0 R) as R0. assert (FR := fe_none _ _ _ _ _ _ F0). assert (NB : b <> row) by congruence. assert (ER : e <> row) by congruence.
    assert (NR0 : ~ read_only (s_heap s0) b) by exact (fresh_writable _ _ _ _ _ _ b W F0 (ex_intro _ nb HB) NR).
    assert (B0 : items s_TBODY (s_heap s0) e (b :: k)) by (eapply items_placed; [apply (fresh_placed _ _ _ _ _ _ F0)|exact BW]).
    destruct (item_at s_TBODY body_name s0 ch e (b :: k) 0%N W0 R0 B0) as (s1 & EI & AN). { reflexivity. } change (nth_error (b :: k) (N.to_nat 0)) with (Some b) in *.
    destruct (answered_wf s0 s1 ch b nb0 W0 AN HB0 (R0 _ _ HB0)) as [W1 HB1]. pose proof W1 as (_ & WT1 & WO1 & _).
    assert (NR1 : ~ read_only (s_heap s1) b) by (eapply answered_writable; [exact W0|exact AN|exists nb0; auto|exact NR0]).
    destruct (fe_node _ _ _ _ _ _ F0) as (nr & ne' & HR & He' & R1 & R2 & R3 & R4 & R5 & R6 & R7 & R8). assert (ne' = ne) by congruence. subst ne'.
    assert (HR1 : s_heap s1 row = Some nr). { destruct AN as (_ & _ & AN). rewrite AN, HR. destruct (oid_eqb (Some b) (Some row)) eqn:Q; auto. apply oid_eqb_eq in Q. congruence. }
    assert (OB : n_owner nb = n_owner ne). { pose proof (owner_up _ _ WO (wf_parents _ _ W) _ _ AB (ex_intro _ nb HB)) as Q. unfold owner_of in Q. rewrite HB, He in Q. exact Q. }
    pose proof (R0 _ _ HB0) as RB.
    destruct (append_ok s1 ch b row _ nr W1 HB1 ltac:(cbn; congruence) HR1 R1) as (o & FF & Q); try (rewrite R8; reflexivity); try (unfold no_wrap; rewrite R8; reflexivity); try (unfold no_wrap; cbn; lia).
    assert (o = None).
    { unfold insert_checks in FF. inversion FF as [|P1 e1 r1 X|P1 e1 r1 o1 _ F1]; subst P1 e1 r1. { exfalso. destruct X as [X _]. apply X. unfold owner_of. rewrite HR1, HB1. cbn [set_ref n_owner]. congruence. }
      subst o1. inversion F1 as [|P1 e1 r1 X|P1 e1 r1 o1 _ F2]; subst P1 e1 r1. { contradiction. }
      subst o1. inversion F2 as [|P1 e1 r1 X|P1 e1 r1 o1 _ F3]; subst P1 e1 r1. { exfalso. destruct X as (x & X & _). discriminate. }
      subst o1. inversion F3 as [|P1 e1 r1 X|P1 e1 r1 o1 _ F4]; subst P1 e1 r1.
      { exfalso. destruct (anc_back (s_heap s) (s_heap s1)) with (a := row) (i := b) as [_ (z & Z)]; [|apply (wf_parents _ _ W)|exact X|exists nb; auto|congruence].
        intros j m M. destruct (fe_keep _ _ _ _ _ _ F0 _ _ M) as (m0 & M0 & (_&_&_&_&_&Y&_) & _). destruct AN as (_ & _ & AN). eexists. rewrite AN, M0. split; [reflexivity|]. destruct (oid_eqb (Some b) (Some j)); exact Y. }
      subst o1. inversion F4 as [|P1 e1 r1 X|P1 e1 r1 o1 _ F5]; subst P1 e1 r1.
      { exfalso. destruct X as [_ X]. apply X. eexists _, nr. split; [exact HB1|]. split; [exact HR1|]. cbn [set_ref n_type]. rewrite PT, TB, R1. split; [apply nests_content; simpl; tauto|discriminate]. }
      subst o1. inversion F5 as [|P1 e1 r1 X|P1 e1 r1 o1 _ F6]; subst P1 e1 r1. { exfalso. destruct X as [_ (q & X & _)]. unfold parent_of in X. rewrite HR1 in X. congruence. }
      subst o1. inversion F6. auto. }
    subst o. destruct Q as (s4 & ch4 & E4 & W4 & LS & LV & SC). pose proof W4 as (_ & WT4 & _).
    assert (C4 : forall j, live (s_heap s1) j -> ch4 j = if Nat.eqb j b then ch j ++ [row] else ch j).
    { intros j J. pose proof (LS _ _ (ch_children _ _ WT1 j J)) as Q. rewrite without_notin in Q by apply (fe_ch _ _ _ _ _ _ F0). apply (wfT_children _ _ WT4) in Q; [auto|apply LV; auto]. }
    assert (LB1 : live (s_heap s1) b) by (eexists; exact HB1). assert (LR1 : live (s_heap s1) row) by (exists nr; auto).
    assert (RBQ := proj2 (Nat.eqb_neq row b) (not_eq_sym NB)). assert (BRQ := proj2 (Nat.eqb_neq b row) NB).
    destruct (proj1 (LV b) LB1) as (nb4 & HB4). destruct (proj1 (LV row) LR1) as (nr4 & HR4).
    destruct (SC _ _ _ HB1 HB4) as (X1 & X2 & X3 & X4 & X5 & X6 & _ & _ & X9 & X10). rewrite BRQ in X10. cbn [set_ref n_ref] in X10.
    destruct (SC _ _ _ HR1 HR4) as (Y1 & Y2 & Y3 & Y4 & Y5 & Y6 & _ & _ & Y9 & Y10). rewrite Nat.eqb_refl, R8 in Y10.
    assert (PR4 : n_parent nr4 = Some b). { assert (I : In row (ch4 b)) by (rewrite (C4 b LB1), Nat.eqb_refl; apply in_or_app; right; left; auto). destruct (wt_child _ _ WT4 _ _ I) as (m & x & M & _ & _ & P & _). congruence. }
    assert (PB4 : n_parent nb4 <> None).
    { destruct (n_parent nb) as [p|] eqn:P; [|congruence]. destruct (wt_parent _ _ WT _ _ _ HB P) as (np & HP & A & _). destruct A as [I _]; [congruence|].
      destruct (fe_keep _ _ _ _ _ _ F0 _ _ HP) as (np0 & HP0 & _). assert (LP : live (s_heap s1) p) by (destruct AN as (_ & _ & AN); eexists; rewrite AN, HP0; reflexivity).
      assert (I4 : In b (ch4 p)). { rewrite (C4 p LP). destruct (Nat.eqb p b); [apply in_or_app; left|]; auto. } destruct (wt_child _ _ WT4 _ _ I4) as (m & x & M & _ & _ & Q & _). congruence. }
    destruct (drop_one s4 ch4 b nb4 W4 HB4) as (s5 & E5 & W5 & H5). { lia. } { lia. } { right; exact PB4. }
    assert (HR5 : s_heap s5 row = Some nr4) by (rewrite H5, hmod_other; auto).
    destruct (drop_one s5 ch4 row nr4 W5 HR5) as (s6 & E6 & W6 & H6). { rewrite Y10; reflexivity. } { rewrite Y10; reflexivity. } { right; congruence. }
    pose proof W6 as (_ & WT6 & _). destruct (parent_doc _ _ WT WO _ _ He) as (dd & nd & OD & _). { intros (Q & _); congruence. } { congruence. }
    assert (H6R : s_heap s6 row = Some (ref_down nr4)) by (rewrite H6, hmod_same, HR5; auto).
    assert (K6 : forall j n, s_heap s j = Some n -> exists n', s_heap s6 j = Some n' /\ kept_fields n n' /\ n_ref n' = n_ref n).
    { intros j n J. assert (JR : j <> row) by congruence. apply Nat.eqb_neq in JR as JQ. destruct (fe_keep _ _ _ _ _ _ F0 _ _ J) as (m0 & M0 & (Z1&Z2&Z3&Z4&Z5&_&_&_&_&_&_&Z12) & ZA & _).
      destruct AN as (_ & _ & AN). pose proof (AN j) as M1. rewrite M0 in M1. destruct (Nat.eq_dec b j) as [<-|NJ]; [|assert (OQ : oid_eqb (Some b) (Some j) = false) by (destruct (oid_eqb (Some b) (Some j)) eqn:Q; auto; apply oid_eqb_eq in Q; congruence); rewrite OQ in M1].
      - assert (m0 = nb0) by congruence. subst m0. exists (ref_down nb4). split; [rewrite H6, hmod_other, H5, hmod_same, HB4; auto|].
        cbn [set_ref n_type n_name n_value n_ns n_prefix n_attrs] in *. split; [cbn; unfold kept_fields; cbn [ref_down set_ref n_type n_name n_value n_ns n_prefix n_attrs]; repeat split; congruence|].
        rewrite ref_down_val; lia.
      - destruct (proj1 (LV j) (ex_intro _ m0 M1)) as (m4 & M4). destruct (SC _ _ _ M1 M4) as (U1 & U2 & U3 & U4 & U5 & U6 & _ & _ & _ & U10). rewrite JQ in U10. exists m4.
        split; [rewrite H6, hmod_other, H5, hmod_other; auto|]. split; [repeat split; congruence|congruence]. }
    exists row, s6. split.
    - unfold table_insert_row. step (rows_length_ok s ch e [] W R RW). cbn [length].
      assert (Q : ((as_i32 (N.of_nat 0) <? index)%Z || (index <? -1)%Z)%bool = false) by (rewrite as_i32_small by reflexivity; destruct IX as [-> | -> ]; reflexivity).
      rewrite Q. change (N.of_nat 0 =? 0)%N with true. cbn iota. step ED. step (load_ok _ _ _ He). step EC.
      assert (T : try (table_body e) s0 = Ok (inl b) s1).
      { unfold try, table_body. step (items_length_ok s_TBODY body_name s0 ch e (b :: k) W0 R0 B0). assert (Z : (N.of_nat (length (b :: k)) =? 0)%N = false) by (apply N.eqb_neq; cbn [length]; lia). rewrite Z. step EI. reflexivity. }
      step T. assert (T4 : try (append_child b row) s1 = Ok (inl row) s4) by (unfold try; rewrite E4; reflexivity). step T4. step E5. step E6. reflexivity.
    - constructor.
      + eapply wf_linked; exact W6.
      + exact FR.
      + exists (ref_down nr4), ne. assert (RV : n_ref (ref_down nr4) = 1%N) by (rewrite ref_down_val; rewrite Y10; reflexivity).
        cbn [ref_down n_type n_name n_ns n_prefix n_owner n_parent n_attrs set_ref]. repeat (split; [first [exact H6R|congruence|destruct Y9; congruence]|]). exact RV.
      + assert (CR : ch4 row = []) by (rewrite (C4 row LR1), RBQ; exact (fe_leaf _ _ _ _ _ _ F0)). rewrite <- CR. apply (ch_children _ _ WT6). eexists; eassumption.
      + intros p l C. assert (LP : live (s_heap s) p) by (destruct C as (a & A & _); exists a; auto). apply (wfT_children _ _ WT) in C; auto. subst l. destruct LP as (x & X).
        destruct (K6 _ _ X) as (m6 & M6 & _). destruct (fe_keep _ _ _ _ _ _ F0 _ _ X) as (x0 & X0 & _). assert (LP : live (s_heap s1) p) by (destruct AN as (_ & _ & AN); eexists; rewrite AN, X0; reflexivity).
        rewrite <- (C4 p LP). apply (ch_children _ _ WT6). exists m6; auto.
      + intros j n J. destruct (K6 _ _ J) as (m & M & (A1&A2&A3&A4&A5&A6) & A7). exists m. repeat (split; [assumption|]). assumption.
  Qed.
End GrowIn.

Lemma reach_grow_in : forall j s g e b k, reach j s g -> briefly j -> rows (s_heap s) e [] -> items s_TBODY (s_heap s) e (b :: k) -> ~ read_only (s_heap s) b ->
  forall index, (index = -1 \/ index = 0)%Z -> exists row s', table_insert_row e index s = Ok row s' /\ grown_in s e b row s'.
Proof.
  intros j s g e b k RE BR RW BW NR index IX. pose proof (items_element s_TBODY _ _ _ BW) as TY. unfold type_of in TY. destruct (s_heap s e) as [ne|] eqn:He; [|discriminate]. injection TY as TE.
  destruct (reach_roomy _ _ _ RE BR) as [(ch & W) [R _]]. eapply grow_in; eauto.
Qed.
