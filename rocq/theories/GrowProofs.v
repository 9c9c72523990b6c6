(** insertRow on a table without rows and bodies. *)
From Coq Require Import List Arith NArith ZArith Bool Lia ZifyBool ZifyNat ZifyN.
From Verif Require Import Base HeapModel HeapSpec HeapInv HeapExec HeapTree HeapInsert HeapFrame HeapCreate HeapOps HeapLoops HeapRemoveOp HeapAttrNode HeapContent HeapUnref HistModel HistProofs TreeSpec TreeProofs TreeProofs3
  StringModel WalkModel WalkSpec WalkProofs WalkLists WalkFinds WalkReach ContentProofs ImportProofs HtmlModel HtmlSpec HtmlBase HtmlSelect HtmlTake HtmlRows HtmlTable HtmlInsert HtmlTables HtmlBodies PartSpec PartProofs GrowSpec.
Import ListNotations.
Local Open Scope dom_scope.

(** Parents do not change when the lists do not. *)
Lemma parents_kept : forall s ch s3 ch3, wf s ch -> wf s3 ch3 ->
  (forall j n, s_heap s j = Some n -> exists n3, s_heap s3 j = Some n3 /\ n_type n3 = n_type n /\ n_attrs n3 = n_attrs n) ->
  (forall j p, live (s_heap s) j -> (In j (ch3 p) <-> In j (ch p))) ->
  (forall q n3, s_heap s3 q = Some n3 -> s_heap s q = None -> n_attrs n3 = []) ->
  forall j n n3, s_heap s j = Some n -> s_heap s3 j = Some n3 -> n_parent n3 = n_parent n.
Proof.
  intros s ch s3 ch3 (_ & WT & _) (_ & WT3 & _) K L NA j n n3 H H3. destruct (K _ _ H) as (n3' & H3' & TY & _). assert (n3' = n3) by congruence. subst n3'.
  assert (LJ : live (s_heap s) j) by (exists n; auto). destruct (n_parent n) as [p|] eqn:P.
  - destruct (wt_parent _ _ WT _ _ _ H P) as (np & HP & A & B). destruct (node_type_dec (n_type n) ATTRIBUTE) as [T|T].
    + destruct (K _ _ HP) as (np3 & HP3 & _ & AT). destruct (wt_attrs _ _ WT3 _ _ HP3) as (_ & _ & Q). destruct (Q j) as (na & X & _ & Y); [rewrite AT; auto|]. congruence.
    + destruct (A T) as [I _]. apply (L j p LJ) in I. destruct (wt_child _ _ WT3 _ _ I) as (m & _ & M & _ & _ & Y & _). congruence.
  - destruct (n_parent n3) as [q|] eqn:Q; auto. exfalso. destruct (wt_parent _ _ WT3 _ _ _ H3 Q) as (nq3 & HQ3 & A & B). destruct (node_type_dec (n_type n3) ATTRIBUTE) as [T|T].
    + specialize (B T). destruct (s_heap s q) as [nq|] eqn:HQ; [|rewrite (NA _ _ HQ3 HQ) in B; destruct B].
      destruct (K _ _ HQ) as (x & X & _ & AT). assert (x = nq3) by congruence. subst x. rewrite AT in B. destruct (wt_attrs _ _ WT _ _ HQ) as (_ & _ & Z). destruct (Z j B) as (na & Z1 & _ & Z2). congruence.
    + destruct (A T) as [I _]. apply (L j q LJ) in I. destruct (wt_child _ _ WT _ _ I) as (m & _ & M & _ & _ & Y & _). congruence.
Qed.

(** One reference less. *)
Lemma drop_one : forall s ch i n, wf s ch -> s_heap s i = Some n -> (0 < n_ref n)%N -> (n_ref n < two32)%N -> (1 < n_ref n)%N \/ n_parent n <> None ->
  exists s', node_unref i s = Ok tt s' /\ wf s' ch /\ s_heap s' = hmod (s_heap s) i ref_down.
Proof.
  intros s ch i n W H R1 R2 D. destruct (unref_spec s ch i n W H R1 R2) as (h' & ch' & E & W' & Z).
  assert (Q : (1 <? n_ref n)%N || negb (is_none (n_parent n)) = true). { destruct D as [D|D]; [apply N.ltb_lt in D; rewrite D; reflexivity|]. destruct (n_parent n); [apply orb_true_r|congruence]. }
  rewrite Q in Z. destruct Z as [-> ->]. exists (withh s (hmod (s_heap s) i ref_down)). auto.
Qed.

Section Grow.
  Variables (s : st) (ch : id -> list id) (e : id) (ne : node).
  Hypothesis W : wf s ch.
  Hypothesis R : roomy s.
  Hypothesis He : s_heap s e = Some ne.
  Hypothesis TE : n_type ne = ELEMENT.
  Hypothesis NR : ~ read_only (s_heap s) e.
  Hypothesis RW : rows (s_heap s) e [].
  Hypothesis BW : items s_TBODY (s_heap s) e [].

  (** The row, then the body in the table. *)
  Record seeded (row b : id) (s3 : st) (ch3 : id -> list id) : Prop := mkSeeded {
    sd_wf : wf s3 ch3;
    sd_fresh : s_heap s b = None /\ s_heap s row = None /\ b <> row;
    sd_ch : forall j, ch3 j = if Nat.eqb j e then ch e ++ [b] else ch j;
    sd_leaf : ch row = [] /\ ch b = [] /\ (forall q, ~ In row (ch q)) /\ (forall q, ~ In b (ch q));
    sd_row : exists n, s_heap s3 row = Some n /\ n_type n = ELEMENT /\ n_name n = Some s_TR /\ n_ns n = n_ns ne /\ n_prefix n = n_prefix ne /\ n_owner n = n_owner ne /\ n_attrs n = [] /\ n_ref n = 1%N;
    sd_body : exists n, s_heap s3 b = Some n /\ n_type n = ELEMENT /\ n_name n = Some s_TBODY /\ n_ns n = n_ns ne /\ n_prefix n = n_prefix ne /\ n_owner n = n_owner ne /\ n_attrs n = [] /\ n_ref n = 1%N;
    sd_keep : forall j n, s_heap s j = Some n -> exists n3, s_heap s3 j = Some n3 /\ kept_fields n n3 /\ n_ref n3 = n_ref n /\ n_ro n3 = n_ro n;
    sd_none : forall j, s_heap s j = None -> j <> row -> j <> b -> s_heap s3 j = None
  }.

  Lemma seed : exists row b s0 s3 ch3 d, html_doc e s = Ok d s /\ create_node (Some d) ELEMENT (Some s_TR) None (n_ns ne) (n_prefix ne) s = Ok row s0 /\
    table_body e s0 = Ok b s3 /\ seeded row b s3 ch3.
  Proof.
    destruct (new_element s ch e ne s_TR W He TE) as (d & s0 & ED & EC & F0). set (row := s_nxt s) in *. pose proof (fe_wf _ _ _ _ _ _ F0) as W0.
    destruct (fe_keep _ _ _ _ _ _ F0 _ _ He) as (ne0 & He0 & P0 & A0 & _). pose proof P0 as (PT & _ & _ & PN & PP & _ & _ & _ & _ & _ & PO & PR).
    assert (TE0 : n_type ne0 = ELEMENT) by congruence. pose proof (fresh_roomy _ _ _ _ _ _ F0 R) as R0.
    assert (NR0 : ~ read_only (s_heap s0) e) by exact (fresh_writable _ _ _ _ _ _ e W F0 (ex_intro _ ne He) NR).
    assert (B0 : items s_TBODY (s_heap s0) e []) by (eapply items_placed; [apply (fresh_placed _ _ _ _ _ _ F0)|exact BW]).
    destruct (new_element s0 ch e ne0 s_TBODY W0 He0 TE0) as (d1 & s1 & ED1 & EC1 & F1). set (b := s_nxt s0) in *. pose proof (fe_wf _ _ _ _ _ _ F1) as W1.
    assert (HE1 : exists ne1, s_heap s1 e = Some ne1 /\ no_wrap ne1).
    { destruct (fe_keep _ _ _ _ _ _ F1 _ _ He0) as (ne1 & H1 & Q & _). exists ne1. split; auto. destruct Q as (_&_&_&_&_&_&_&_&_&_&_&Q). pose proof (R0 _ _ He0). unfold no_wrap. rewrite Q. lia. }
    destruct (put_fresh s0 ch e b s_TBODY s1 None W0 F1) with (s1 := s1) as [_ GOOD]; auto. { discriminate. } { exists ne0. split; auto. split; auto. eauto. }
    destruct GOOD as (s2 & ch2 & E2 & W2 & EDT & CH). { discriminate. }
    destruct (fe_node _ _ _ _ _ _ F0) as (nr & ne' & HR & He' & R1 & R2 & R3 & R4 & R5 & R6 & R7 & R8). assert (ne' = ne) by congruence. subst ne'.
    destruct (fe_node _ _ _ _ _ _ F1) as (nb & ne' & HB & He'' & B1 & B2 & B3 & B4 & B5 & B6 & B7 & B8). assert (ne' = ne0) by congruence. subst ne'.
    pose proof W as (_ & WT & WO & _). destruct (parent_doc _ _ WT WO _ _ He) as (dd & nd & OD & _). { intros (Q & _); congruence. } { congruence. }
    assert (NB : b <> row). { intros X. pose proof (fe_none _ _ _ _ _ _ F1) as Q. rewrite X in Q. congruence. }
    assert (FB : s_heap s b = None). { destruct (s_heap s b) as [x|] eqn:X; auto. exfalso. destruct (fe_keep _ _ _ _ _ _ F0 _ _ X) as (y & Y & _). pose proof (fe_none _ _ _ _ _ _ F1). congruence. }
    destruct (ed_some _ _ _ _ EDT _ _ HB) as (nb2 & HB2 & X1 & X2 & X3 & X4 & X5 & X6 & _ & _ & X9 & X10 & _). rewrite Nat.eqb_refl, B8 in X9.
    destruct (drop_one s2 ch2 b nb2 W2 HB2) as (s3 & E3 & W3 & H3). { rewrite X9; reflexivity. } { rewrite X9; reflexivity. } { left; rewrite X9; reflexivity. }
    destruct (fe_keep _ _ _ _ _ _ F1 _ _ HR) as (nr1 & HR1 & (Q1&Q2&Q3&Q4&Q5&Q6&_&_&_&_&Q11&Q12) & QA & _).
    destruct (ed_some _ _ _ _ EDT _ _ HR1) as (nr2 & HR2 & Y1 & Y2 & Y3 & Y4 & Y5 & Y6 & _ & _ & Y9 & Y10 & _). assert (NBQ := proj2 (Nat.eqb_neq row b) (not_eq_sym NB)). rewrite NBQ in Y9.
    exists row, b, s0, s3, ch2, d. split; [exact ED|]. split; [exact EC|]. split.
    - unfold table_body. step (items_length_ok s_TBODY body_name s0 ch e [] W0 R0 B0). cbn [length N.of_nat N.eqb]. step ED1. step (load_ok _ _ _ He0). step EC1.
      assert (EA : append_child e b s1 = Ok b s2). { unfold append_child. unfold try in E2. destruct (insert_before e b None s1) as [x y|x y|x]; try discriminate. injection E2 as <- <-. reflexivity. }
      step EA. step E3. reflexivity.
    - constructor; auto.
      + split; auto. split; auto. exact (fe_none _ _ _ _ _ _ F0).
      + split; [exact (fe_leaf _ _ _ _ _ _ F0)|]. split; [exact (fe_leaf _ _ _ _ _ _ F1)|]. split; [exact (fe_ch _ _ _ _ _ _ F0)|exact (fe_ch _ _ _ _ _ _ F1)].
      + exists nr2. rewrite H3, hmod_other by auto. split; auto. repeat (split; [congruence|]). split; [|split; congruence]. destruct Y10 as [Y|Y]; congruence.
      + exists (ref_down nb2). rewrite H3, hmod_same, HB2. split; auto. assert (RV : n_ref (ref_down nb2) = 1%N) by (rewrite ref_down_val; rewrite X9; reflexivity).
        cbn [ref_down n_type n_name n_ns n_prefix n_owner n_attrs set_ref]. repeat (split; [congruence|]). split; [|split; [congruence|exact RV]]. destruct X10 as [X|X]; congruence.
      + intros j n J. destruct (fe_keep _ _ _ _ _ _ F0 _ _ J) as (m0 & M0 & (Z1&Z2&Z3&Z4&Z5&_&_&_&_&_&_&Z12) & ZA & ZR). destruct (fe_keep _ _ _ _ _ _ F1 _ _ M0) as (m1 & M1 & (V1&V2&V3&V4&V5&_&_&_&_&_&_&V12) & VA & VR).
        destruct (ed_some _ _ _ _ EDT _ _ M1) as (m2 & M2 & U1 & U2 & U3 & U4 & U5 & U6 & _ & U8 & U9 & _). assert (JB : j <> b) by congruence.
        apply Nat.eqb_neq in JB as JQ. rewrite JQ in U9. exists m2. rewrite H3, hmod_other by auto. split; auto. split; [repeat split; congruence|split; congruence].
      + intros j J JR JB. rewrite H3, hmod_other by auto. apply (ed_none _ _ _ _ EDT). apply (fe_back _ _ _ _ _ _ F1); auto. apply (fe_back _ _ _ _ _ _ F0); auto.
  Qed.

  Lemma plant : forall row b s3 ch3, seeded row b s3 ch3 -> exists s', (r <- try (append_child b row) ;; node_unref b ;;; node_unref row ;;; match r with inl x => ret x | inr y => raise y end) s3 = Ok row s' /\
    grown s e b row s'.
  Proof.
    intros row b s3 ch3 [W3 (FB & FR & NB) CH (L1 & L2 & L3 & L4) (nr & HR & R1 & R2 & R3 & R4 & R5 & R6 & R7) (nb & HB & B1 & B2 & B3 & B4 & B5 & B6 & B7) KP NO].
    pose proof W3 as (WL3 & WT3 & WO3 & _). pose proof W as (_ & WT & _).
    assert (EB : e <> b) by congruence. assert (ER : e <> row) by congruence. assert (BEQ := proj2 (Nat.eqb_neq b e) (not_eq_sym EB)). assert (REQ := proj2 (Nat.eqb_neq row e) (not_eq_sym ER)).
    assert (PK : forall j n n3, s_heap s j = Some n -> s_heap s3 j = Some n3 -> n_parent n3 = n_parent n).
    { apply (parents_kept s ch s3 ch3 W W3).
      - intros j n J. destruct (KP _ _ J) as (m & M & (K1 & _ & _ & _ & _ & K6) & _). exists m. auto.
      - intros j p (x & J). rewrite CH. destruct (Nat.eqb_spec p e) as [->|]; [|tauto]. rewrite in_app_iff. cbn. split; [intros [|[<-|[]]]; [auto|congruence]|auto].
      - intros q n3 Q Z. destruct (Nat.eq_dec q row) as [->|N1]; [congruence|]. destruct (Nat.eq_dec q b) as [->|N2]; [congruence|]. rewrite (NO q Z N1 N2) in Q. discriminate. }
    assert (PB : n_parent nb = Some e). { assert (I : In b (ch3 e)) by (rewrite CH, Nat.eqb_refl; apply in_or_app; right; left; auto). destruct (wt_child _ _ WT3 _ _ I) as (m & x & M & _ & _ & P & _). congruence. }
    assert (NIN : forall q, ~ In row (ch3 q)). { intros q I. rewrite CH in I. destruct (Nat.eqb q e); [apply in_app_or in I as [I|[I|[]]]; [exact (L3 _ I)|congruence]|exact (L3 _ I)]. }
    assert (PR : n_parent nr = None). { destruct (n_parent nr) as [q|] eqn:Q; auto. exfalso. destruct (wt_parent _ _ WT3 _ _ _ HR Q) as (x & _ & A & _). destruct A as [I _]; [congruence|]. exact (NIN _ I). }
    assert (KR : forall j n, s_heap s j = Some n -> exists n', s_heap s3 j = Some n' /\ n_parent n' = n_parent n /\ n_type n' = n_type n /\ n_ro n' = n_ro n).
    { intros j n J. destruct (KP _ _ J) as (m & M & (K1 & _) & _ & K). exists m. split; auto. split; [eapply PK; eauto|auto]. }
    assert (NRE : ~ read_only (s_heap s3) e). { intros Q. apply NR. eapply (read_only_back (s_heap s) (s_heap s3)); [exact KR|apply (wf_parents _ _ W)|exists ne; auto|exact Q]. }
    destruct (KP _ _ He) as (ne3 & He3 & (KE1 & _) & KE2 & KE3).
    assert (NRB : ~ read_only (s_heap s3) b).
    { intros (n & N1 & Q). assert (n = nb) by congruence. subst n. destruct Q as [Q|[Q|[(Q & _)|(_ & a & na & AN & HA & TA)]]]; try congruence.
      inversion AN as [|i x q A1 A2 A3]; subst. { assert (na = nb) by congruence. subst na. destruct TA; congruence. }
      assert (x = nb) by congruence. subst x. assert (q = e) by congruence. subst q. apply NRE. exists ne3. split; auto. right. right. right. split; [congruence|]. exists a, na. auto. }
    destruct (append_ok s3 ch3 b row nb nr W3 HB B1 HR R1) as (o & FF & Q); try (rewrite B7; reflexivity); try (rewrite R7; reflexivity); try (unfold no_wrap; rewrite B7; reflexivity); try (unfold no_wrap; rewrite R7; reflexivity).
    assert (o = None).
    { unfold insert_checks in FF. inversion FF as [|P1 e1 r1 X|P1 e1 r1 o1 _ F1]; subst P1 e1 r1. { exfalso. destruct X as [X _]. apply X. unfold owner_of. rewrite HR, HB. congruence. }
      subst o1. inversion F1 as [|P1 e1 r1 X|P1 e1 r1 o1 _ F2]; subst P1 e1 r1. { contradiction. }
      subst o1. inversion F2 as [|P1 e1 r1 X|P1 e1 r1 o1 _ F3]; subst P1 e1 r1. { exfalso. destruct X as (x & X & _). discriminate. }
      subst o1. inversion F3 as [|P1 e1 r1 X|P1 e1 r1 o1 _ F4]; subst P1 e1 r1.
      { exfalso. inversion X as [|i a q A1 A2 A3]; [congruence|]. subst i. assert (a = nb) by congruence. subst a. assert (q = e) by congruence. subst q.
        destruct (anc_back (s_heap s) (s_heap s3)) with (a := row) (i := e) as [_ (z & Z)]; auto. { intros j m M. destruct (KR _ _ M) as (m' & Y1 & Y2 & _). exists m'. auto. } { apply (wf_parents _ _ W). } { exists ne; auto. } congruence. }
      subst o1. inversion F4 as [|P1 e1 r1 X|P1 e1 r1 o1 _ F5]; subst P1 e1 r1.
      { exfalso. destruct X as [_ X]. apply X. exists nb, nr. split; auto. split; auto. split; [|congruence]. rewrite B1, R1. apply nests_content; simpl; tauto. }
      subst o1. inversion F5 as [|P1 e1 r1 X|P1 e1 r1 o1 _ F6]; subst P1 e1 r1. { exfalso. destruct X as [_ (q & X & _)]. unfold parent_of in X. rewrite HR in X. congruence. }
      subst o1. inversion F6. auto. }
    subst o. destruct Q as (s4 & ch4 & E4 & W4 & LS & LV & SC). pose proof W4 as (_ & WT4 & _).
    assert (C4 : forall j, live (s_heap s3) j -> ch4 j = if Nat.eqb j b then ch3 j ++ [row] else ch3 j).
    { intros j J. pose proof (LS _ _ (ch_children _ _ WT3 j J)) as Q. rewrite without_notin in Q by apply NIN. apply (wfT_children _ _ WT4) in Q; [auto|apply LV; auto]. }
    assert (LB3 : live (s_heap s3) b) by (exists nb; auto). assert (LR3 : live (s_heap s3) row) by (exists nr; auto). assert (LE3 : live (s_heap s3) e) by (exists ne3; auto).
    assert (RBQ := proj2 (Nat.eqb_neq row b) (not_eq_sym NB)). assert (BRQ := proj2 (Nat.eqb_neq b row) NB). assert (EBQ := proj2 (Nat.eqb_neq e b) EB). assert (ERQ := proj2 (Nat.eqb_neq e row) ER).
    assert (CB : ch4 b = [row]). { rewrite (C4 b LB3), Nat.eqb_refl, CH, BEQ, L2. reflexivity. }
    assert (CR : ch4 row = []). { rewrite (C4 row LR3), RBQ, CH, REQ. exact L1. }
    assert (CE : ch4 e = ch e ++ [b]). { rewrite (C4 e LE3), EBQ, CH, Nat.eqb_refl. reflexivity. }
    destruct (proj1 (LV b) LB3) as (nb4 & HB4). destruct (proj1 (LV row) LR3) as (nr4 & HR4).
    destruct (SC _ _ _ HB HB4) as (X1 & X2 & X3 & X4 & X5 & X6 & _ & _ & X9 & X10). rewrite BRQ, B7 in X10.
    destruct (SC _ _ _ HR HR4) as (Y1 & Y2 & Y3 & Y4 & Y5 & Y6 & _ & _ & Y9 & Y10). rewrite Nat.eqb_refl, R7 in Y10.
    assert (PB4 : n_parent nb4 = Some e). { assert (I : In b (ch4 e)) by (rewrite CE; apply in_or_app; right; left; auto). destruct (wt_child _ _ WT4 _ _ I) as (m & x & M & _ & _ & P & _). congruence. }
    assert (PR4 : n_parent nr4 = Some b). { assert (I : In row (ch4 b)) by (rewrite CB; left; auto). destruct (wt_child _ _ WT4 _ _ I) as (m & x & M & _ & _ & P & _). congruence. }
    destruct (drop_one s4 ch4 b nb4 W4 HB4) as (s5 & E5 & W5 & H5). { rewrite X10; reflexivity. } { rewrite X10; reflexivity. } { right; congruence. }
    assert (HR5 : s_heap s5 row = Some nr4) by (rewrite H5, hmod_other; auto).
    destruct (drop_one s5 ch4 row nr4 W5 HR5) as (s6 & E6 & W6 & H6). { rewrite Y10; reflexivity. } { rewrite Y10; reflexivity. } { right; congruence. }
    pose proof W6 as (_ & WT6 & _). destruct (parent_doc _ _ WT (proj1 (proj2 (proj2 W))) _ _ He) as (dd & nd & OD & _). { intros (Q & _); congruence. } { congruence. }
    assert (H6B : s_heap s6 b = Some (ref_down nb4)) by (rewrite H6, hmod_other, H5, hmod_same, HB4; auto).
    assert (H6R : s_heap s6 row = Some (ref_down nr4)) by (rewrite H6, hmod_same, HR5; auto).
    assert (K6 : forall j n, s_heap s j = Some n -> exists n', s_heap s6 j = Some n' /\ kept_fields n n' /\ n_ref n' = n_ref n).
    { intros j n J. assert (j <> b) by congruence. assert (JR : j <> row) by congruence. destruct (KP _ _ J) as (m & M & (A1&A2&A3&A4&A5&A6) & A7 & _). destruct (proj1 (LV j) (ex_intro _ m M)) as (m4 & M4).
      destruct (SC _ _ _ M M4) as (Z1 & Z2 & Z3 & Z4 & Z5 & Z6 & _ & _ & _ & Z10). apply Nat.eqb_neq in JR as JQ. rewrite JQ in Z10. exists m4.
      split; [rewrite H6, hmod_other, H5, hmod_other; auto|]. split; [repeat split; congruence|congruence]. }
    assert (IC : forall j p, live (s_heap s) j -> live (s_heap s3) p -> (In j (ch4 p) <-> In j (ch p))).
    { intros j p (x & J) LP. rewrite (C4 p LP), CH. destruct (Nat.eqb_spec p b) as [->|]; [rewrite BEQ, in_app_iff; cbn; split; [intros [|[<-|[]]]; [auto|congruence]|auto]|].
      destruct (Nat.eqb_spec p e) as [->|]; [|tauto]. rewrite in_app_iff. cbn. split; [intros [|[<-|[]]]; [auto|congruence]|auto]. }
    exists s6. split.
    - assert (T4 : try (append_child b row) s3 = Ok (inl row) s4) by (unfold try; rewrite E4; reflexivity). step T4. step E5. step E6. reflexivity.
    - constructor.
      + eapply wf_linked; exact W6.
      + auto.
      + exists (ref_down nb4), ne. assert (RV : n_ref (ref_down nb4) = 0%N) by (rewrite ref_down_val; rewrite X10; reflexivity).
        cbn [ref_down n_type n_name n_ns n_prefix n_owner n_parent n_attrs set_ref]. repeat (split; [first [exact H6B|congruence|destruct X9; congruence]|]). exact RV.
      + exists (ref_down nr4), ne. assert (RV : n_ref (ref_down nr4) = 1%N) by (rewrite ref_down_val; rewrite Y10; reflexivity).
        cbn [ref_down n_type n_name n_ns n_prefix n_owner n_parent n_attrs set_ref]. repeat (split; [first [exact H6R|congruence|destruct Y9; congruence]|]). exact RV.
      + split; [rewrite <- CB|rewrite <- CR]; apply (ch_children _ _ WT6); eexists; eassumption.
      + intros p l C. assert (LP : live (s_heap s) p) by (destruct C as (a & A & _); exists a; auto). apply (wfT_children _ _ WT) in C; auto. subst l. destruct LP as (x & X). assert (PNB : p <> b) by congruence.
        destruct (KP _ _ X) as (m & M & _). destruct (K6 _ _ X) as (m6 & M6 & _). assert (Q : ch4 p = if Nat.eqb p e then ch p ++ [b] else ch p).
        { rewrite (C4 p (ex_intro _ m M)). apply Nat.eqb_neq in PNB as ->. rewrite CH. destruct (Nat.eqb_spec p e) as [->|]; auto. }
        rewrite <- Q. apply (ch_children _ _ WT6). exists m6; auto.
      + intros j n J. destruct (K6 _ _ J) as (m & M & (A1&A2&A3&A4&A5&A6) & A7). exists m. repeat (split; [assumption|]). split; [|assumption].
        apply (parents_kept s ch s6 ch4 W W6) with (j := j); auto.
        * intros j' n' J'. destruct (K6 _ _ J') as (m' & M' & (D1&_&_&_&_&D6) & _). exists m'. auto.
        * intros j' p LJ. destruct (s_heap s3 p) as [x|] eqn:X; [apply IC; auto; exists x; auto|].
          assert (N4 : s_heap s p = None). { destruct (s_heap s p) as [y|] eqn:Y; auto. destruct (KP _ _ Y) as (z & Z & _). congruence. }
          split; intros I; exfalso.
          -- destruct (wt_child _ _ WT4 _ _ I) as (u & v & _ & U & _). destruct (proj2 (LV p) (ex_intro _ v U)) as (w & W'). congruence.
          -- destruct (wt_child _ _ WT _ _ I) as (u & v & _ & U & _). congruence.
        * intros q n3 Q Z. destruct (Nat.eq_dec q row) as [->|N1]. { assert (n3 = ref_down nr4) by congruence. subst n3. cbn. congruence. }
          destruct (Nat.eq_dec q b) as [->|N2]. { assert (n3 = ref_down nb4) by congruence. subst n3. cbn. congruence. }
          rewrite H6, hmod_other, H5, hmod_other in Q by auto. destruct (proj2 (LV q) (ex_intro _ n3 Q)) as (w & W'). rewrite (NO q Z N1 N2) in W'. discriminate.
  Qed.

  Lemma grow : forall index, (index = -1 \/ index = 0)%Z -> exists b row s', table_insert_row e index s = Ok row s' /\ grown s e b row s'.
  Proof.
    intros index IX. destruct seed as (row & b & s0 & s3 & ch3 & d & ED & EC & EB & SD). destruct (plant row b s3 ch3 SD) as (s' & E & G). exists b, row, s'. split; auto.
    unfold table_insert_row. step (rows_length_ok s ch e [] W R RW). cbn [length].
    assert (Q : ((as_i32 (N.of_nat 0) <? index)%Z || (index <? -1)%Z)%bool = false) by (rewrite as_i32_small by reflexivity; destruct IX as [-> | -> ]; reflexivity).
    rewrite Q. change (N.of_nat 0 =? 0)%N with true. cbn iota. step ED. step (load_ok _ _ _ He). step EC.
    assert (T : try (table_body e) s0 = Ok (inl b) s3) by (unfold try; rewrite EB; reflexivity). step T. exact E.
  Qed.
End Grow.

Lemma reach_grow : forall j s g e, reach j s g -> briefly j -> rows (s_heap s) e [] -> items s_TBODY (s_heap s) e [] -> ~ read_only (s_heap s) e ->
  forall index, (index = -1 \/ index = 0)%Z -> exists b row s', table_insert_row e index s = Ok row s' /\ grown s e b row s'.
Proof.
  intros j s g e RE BR RW BW NR index IX. pose proof (items_element s_TBODY _ _ _ BW) as TY. unfold type_of in TY. destruct (s_heap s e) as [ne|] eqn:He; [|discriminate]. injection TY as TE.
  destruct (reach_roomy _ _ _ RE BR) as [(ch & W) [R _]]. eapply grow; eauto.
Qed.
