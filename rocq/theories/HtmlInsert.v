(** Inserting a row into a section. *)
From Coq Require Import List Arith NArith ZArith Bool Lia ZifyBool ZifyNat ZifyN.
From Verif Require Import Base HeapModel HeapSpec HeapInv HeapExec HeapTree HeapInsert HeapFrame HeapCreate HeapOps HeapRemoveOp HeapAttrNode HeapContent HeapUnref HistModel HistProofs TreeSpec TreeProofs TreeProofs3
  StringModel WalkModel WalkSpec WalkProofs WalkLists WalkFinds WalkReach ContentProofs ImportProofs HtmlModel HtmlSpec HtmlBase HtmlSelect HtmlTake HtmlRows HtmlTable.
Import ListNotations.
Local Open Scope dom_scope.

(** ** A new element *)
Record fresh_element (s : st) (ch : id -> list id) (e row : id) (nm : bytes) (s1 : st) : Prop := mkFresh {
  fe_wf : wf s1 ch;
  fe_none : s_heap s row = None;
  fe_ch : forall q, ~ In row (ch q);
  fe_leaf : ch row = [];
  fe_node : exists n ne, s_heap s1 row = Some n /\ s_heap s e = Some ne /\ n_type n = ELEMENT /\ n_name n = Some nm /\ n_ns n = n_ns ne /\
     n_prefix n = n_prefix ne /\ n_owner n = n_owner ne /\ n_parent n = None /\ n_attrs n = [] /\ n_ref n = 1%N;
  fe_keep : forall j n, s_heap s j = Some n -> exists n', s_heap s1 j = Some n' /\ placed n n' /\ n_attrs n' = n_attrs n /\ n_ro n' = n_ro n;
  fe_back : forall j, s_heap s j = None -> j <> row -> s_heap s1 j = None
}.

Lemma new_element : forall s ch e ne nm, wf s ch -> s_heap s e = Some ne -> n_type ne = ELEMENT ->
  exists d s1, html_doc e s = Ok d s /\ create_node (Some d) ELEMENT (Some nm) None (n_ns ne) (n_prefix ne) s = Ok (s_nxt s) s1 /\ fresh_element s ch e (s_nxt s) nm s1.
Proof.
  intros s ch e ne nm W He T. pose proof W as (WL & WT & WO & WR).
  destruct (parent_doc _ _ WT WO _ _ He) as (d & nd & OD & HD & TD). { intros (Q & _); congruence. } { congruence. }
  destruct (create_node_spec s ch d nd ELEMENT (Some nm) None (n_ns ne) (n_prefix ne) W HD TD ltac:(discriminate)) as (h1 & E1 & W1 & G1).
  exists d, (mkSt h1 (S (s_nxt s)) (s_log s)). split. { unfold html_doc. step (load_ok _ _ _ He). rewrite OD. step (load_ok _ _ _ HD). reflexivity. }
  split; auto. assert (FR : s_heap s (s_nxt s) = None) by (apply (gr_fresh _ _ _ _ _ G1)). constructor; auto.
  - intros q I. destruct (wt_child _ _ WT _ _ I) as (a & b & A1 & _). congruence.
  - apply (wt_dead _ _ WT). auto.
  - eexists _, ne. split; [apply (gr_new _ _ _ _ _ G1)|]. cbn. repeat (split; auto).
  - intros j n H. cbn [s_heap]. destruct (Nat.eq_dec j d) as [->|ND].
    + destruct (gr_doc _ _ _ _ _ G1 d eq_refl) as (nd' & A & _ & B). assert (nd' = n) by congruence. subst. eexists. split; [exact B|]. repeat split.
    + exists n. rewrite (gr_other _ _ _ _ _ G1 j); [|congruence|congruence]. repeat (split; auto).
  - intros j H NJ. cbn [s_heap]. rewrite (gr_other _ _ _ _ _ G1 j); auto. intros Q. injection Q as <-. congruence.
Qed.
Lemma fresh_roomy : forall s ch e row nm s1, fresh_element s ch e row nm s1 -> roomy s -> roomy s1.
Proof.
  intros s ch e row nm s1 FE R j n H. destruct (s_heap s j) as [m|] eqn:M.
  - destruct (fe_keep _ _ _ _ _ _ FE _ _ M) as (n' & A & B & _). assert (n' = n) by congruence. subst n'. destruct B as (_&_&_&_&_&_&_&_&_&_&_&B). rewrite B. eauto.
  - destruct (Nat.eq_dec j row) as [->|NJ]; [|rewrite (fe_back _ _ _ _ _ _ FE j M NJ) in H; discriminate].
    destruct (fe_node _ _ _ _ _ _ FE) as (n' & ne & A & _ & _ & _ & _ & _ & _ & _ & _ & B). assert (n' = n) by congruence. subst. rewrite B. reflexivity.
Qed.
Lemma fresh_placed : forall s ch e row nm s1, fresh_element s ch e row nm s1 -> forall j n, s_heap s j = Some n -> exists n', s_heap s1 j = Some n' /\ placed n n'.
Proof. intros s ch e row nm s1 FE j n H. destruct (fe_keep _ _ _ _ _ _ FE _ _ H) as (n' & A & B & _). exists n'. auto. Qed.
Lemma fresh_writable : forall s ch e row nm s1 i, wf s ch -> fresh_element s ch e row nm s1 -> live (s_heap s) i -> ~ read_only (s_heap s) i -> ~ read_only (s_heap s1) i.
Proof.
  intros s ch e row nm s1 i W FE L NR Q. apply NR. eapply (read_only_back (s_heap s) (s_heap s1)); [| |exact L|exact Q].
  - intros j m M. destruct (fe_keep _ _ _ _ _ _ FE _ _ M) as (n' & A & B & _ & C). exists n'. destruct B as (B1&_&_&_&_&B2&_). auto.
  - apply (wf_parents _ _ W).
Qed.
Lemma same_fresh : forall s ch e row nm s1 s2, fresh_element s ch e row nm s1 -> same_state s1 s2 -> fresh_element s ch e row nm s2.
Proof.
  intros s ch e row nm s1 s2 FE SM. assert (SM' := SM). destruct SM' as (_ & _ & E). destruct FE as [F1 F2 F3 F4 F5 F6 F7]. constructor; auto.
  - eapply same_wf; eauto.
  - destruct F5 as (n & ne & A). exists n, ne. rewrite E. exact A.
  - intros j n H. rewrite E. auto.
  - intros j H NJ. rewrite E. auto.
Qed.

(** Dropping it again. *)
Lemma drop_fresh : forall s ch e row nm s1, wf s ch -> fresh_element s ch e row nm s1 -> exists s', node_unref row s1 = Ok tt s' /\ unmoved s s'.
Proof.
  intros s ch e row nm s1 W FE. destruct (fe_node _ _ _ _ _ _ FE) as (n & ne & H & He & T & _ & _ & _ & _ & P & _ & RF). pose proof W as (WL & WT & WO & WR).
  destruct (unref_spec s1 ch row n (fe_wf _ _ _ _ _ _ FE) H) as (h' & ch' & E & W' & Z). { rewrite RF. reflexivity. } { rewrite RF. reflexivity. }
  rewrite RF, P in Z. change ((1 <? 1)%N || negb (is_none (@None id))) with false in Z. cbv iota in Z. set (h2 := hmod (s_heap s1) row ref_down) in *.
  exists (withh s1 h'). split; auto.
  assert (NR := fe_none _ _ _ _ _ _ FE). assert (OT : forall j, j <> row -> h2 j = s_heap s1 j) by (intros; apply hmod_other; auto).
  assert (H2 : h2 row = Some (ref_down n)) by (unfold h2; rewrite hmod_same, H; reflexivity).
  assert (NP : forall j m p, h2 j = Some m -> n_parent m = Some p -> p <> row).
  { intros j m p M PM ->. destruct (Nat.eq_dec j row) as [->|NJ]. { assert (m = ref_down n) by congruence. subst m. cbn in PM. congruence. }
    rewrite OT in M by auto. destruct (s_heap s j) as [m0|] eqn:M0; [|rewrite (fe_back _ _ _ _ _ _ FE j M0 NJ) in M; discriminate].
    destruct (fe_keep _ _ _ _ _ _ FE _ _ M0) as (m' & A & B & _). assert (m' = m) by congruence. subst m'. destruct B as (_&_&_&_&_&B&_). rewrite B in PM.
    destruct (wf_parents _ _ W _ _ _ M0 PM) as (x & X). congruence. }
  assert (DI : forall j, dies h2 row j -> j = row). { intros j D. induction D as [|j m p M PM _ D IH]; auto. exfalso. eapply NP; eauto. }
  assert (NO : forall j, ~ orphaned h2 row j). { intros j (m & p & M & PM & _ & D). apply (NP _ _ _ M PM). auto. }
  constructor.
  - eapply wf_linked; exact W'.
  - intros j J. cbn [withh s_heap]. destruct (Nat.eq_dec j row) as [->|NJ].
    + apply (re_gone _ _ _ _ _ Z row _ (dies_root _ _) H2). change (n_type n <> DOCUMENT). congruence.
    + apply (re_fresh _ _ _ _ _ Z). rewrite OT by auto. apply (fe_back _ _ _ _ _ _ FE); auto.
  - intros j m M DR. cbn [withh s_heap]. assert (NJ : j <> row) by congruence. destruct (fe_keep _ _ _ _ _ _ FE _ _ M) as (m1 & A & B & C & _).
    assert (A2 : h2 j = Some m1) by (rewrite OT; auto). pose proof B as (B1&_&_&_&_&_&_&_&_&_&_&B12).
    destruct (node_type_dec (n_type m1) DOCUMENT) as [TD|TD].
    + destruct (re_doc _ _ _ _ _ Z _ _ A2 TD) as [[_ Y]|(m' & Y1 & Y2 & Y3 & Y4)]. { exfalso. assert ((n_ref m > 0)%N) by (apply DR; congruence). lia. }
      rewrite Y4 in Y1; [|auto|rewrite B12; apply DR; congruence]. eexists. split; [exact Y1|]. split; [exact B|exact C].
    + exists m1. split; [|auto]. apply (re_keep _ _ _ _ _ Z); auto.
Qed.

(** ** Putting it in *)

(** The checks of the insertion. *)
Lemma put_fresh : forall s ch e row nm s0 r, wf s ch -> fresh_element s ch e row nm s0 ->
  (forall x, r = Some x -> exists n, s_heap s x = Some n /\ n_type n = ELEMENT) -> (exists ne, s_heap s e = Some ne /\ n_type ne = ELEMENT /\ (n_ref ne + 8 < two32)%N) ->
  ~ read_only (s_heap s) e ->
  forall s1, (forall j n, s_heap s0 j = Some n -> s_heap s1 j = Some (if oid_eqb r (Some j) then set_ref (n_ref n + 1) n else n)) ->
  (forall j, s_heap s0 j = None -> s_heap s1 j = None) -> wf s1 ch -> (exists ne, s_heap s1 e = Some ne /\ no_wrap ne) ->
  ((exists x, r = Some x /\ parent_of (s_heap s) x <> Some e) -> try (insert_before e row r) s1 = Ok (inr NOT_FOUND_ERR) s1) /\
  ((forall x, r = Some x -> parent_of (s_heap s) x = Some e) ->
   exists s2 ch2, try (insert_before e row r) s1 = Ok (inl row) s2 /\ wf s2 ch2 /\ edited (s_heap s1) (s_heap s2) (Some row) row /\
     forall j, ch2 j = if Nat.eqb j e then insert_at r [row] (ch e) else ch j).
Proof.
  intros s ch e row nm s0 r W FE RE (ne & He & TE & RB) NR s1 K1 KN W1 NWE.
  destruct (fe_node _ _ _ _ _ _ FE) as (n & ne' & H & He' & T & NM & _ & _ & OW & P & AT & RF). assert (ne' = ne) by congruence. subst ne'.
  assert (NR0 := fe_none _ _ _ _ _ _ FE). pose proof W1 as (WL1 & WT1 & WO1 & WR1).
  assert (RN : r <> Some row). { intros ->. destruct (RE row eq_refl) as (a & A & _). congruence. }
  assert (H1 : s_heap s1 row = Some n). { rewrite (K1 _ _ H). destruct (oid_eqb r (Some row)) eqn:Q; auto. apply oid_eqb_eq in Q. contradiction. }
  assert (KEEP : forall j m, s_heap s j = Some m -> exists m', s_heap s1 j = Some m' /\ n_type m' = n_type m /\ n_parent m' = n_parent m /\ n_ro m' = n_ro m /\ n_owner m' = n_owner m /\ (n_ref m <= n_ref m')%N).
  { intros j m M. destruct (fe_keep _ _ _ _ _ _ FE _ _ M) as (m0 & A & B & _ & C). pose proof B as (B1&_&_&_&_&B6&_&_&_&_&B11&B12).
    eexists. split; [apply K1; exact A|]. destruct (oid_eqb r (Some j)); cbn; repeat split; auto; lia. }
  destruct (KEEP _ _ He) as (ne1 & He1 & TE1 & PE1 & _ & OE1 & RE1).
  assert (NR1 : ~ read_only (s_heap s1) e).
  { intros Q. apply NR. eapply (read_only_back (s_heap s) (s_heap s1)); [| |exists ne; auto|exact Q].
    - intros j m M. destruct (KEEP _ _ M) as (m' & A & B & C & D & _). exists m'. auto.
    - apply (wf_parents _ _ W). }
  assert (ER : e <> row) by congruence.
  destruct (tree_exists _ _ _ WL1 WT1 row) as (t & Rt & Et). { exists n; auto. }
  destruct (insert_before_any s1 ch e row r W1) with (t := t) as (o & FF & Q); auto.
  { exists ne1. split; auto. intros (X & _). congruence. }
  { exists n. split; auto. intros (X & _). congruence. }
  { intros x X. destruct (RE x X) as (a & A & B). destruct (KEEP _ _ A) as (a' & A' & B' & _). exists a'. split; auto. congruence. }
  { exists n. split; auto. rewrite RF. split; [reflexivity|]. unfold no_wrap. rewrite RF. reflexivity. }
  { intros np Hp TD. congruence. }
  assert (PR : forall x, r = Some x -> parent_of (s_heap s1) x = parent_of (s_heap s) x).
  { intros x X. destruct (RE x X) as (a & A & B). destruct (KEEP _ _ A) as (a' & A' & _ & B' & _). unfold parent_of. rewrite A, A'. exact B'. }
  unfold insert_checks in FF. inversion FF as [|P1 e1 r1 X|P1 e1 r1 o1 _ F1]; subst P1 e1 r1.
  { exfalso. destruct X as [X _]. apply X. unfold owner_of. rewrite H1, He1. congruence. }
  subst o1. inversion F1 as [|P1 e1 r1 X|P1 e1 r1 o1 _ F2]; subst P1 e1 r1. { contradiction. }
  subst o1. inversion F2 as [|P1 e1 r1 X|P1 e1 r1 o1 NX F3]; subst P1 e1 r1.
  { subst o. split. { intros _. unfold try. rewrite Q. reflexivity. } intros Y. exfalso. destruct X as (x & X1 & X2). apply X2. rewrite (PR x X1). auto. }
  subst o1. split. { intros (x & X1 & X2). exfalso. apply NX. exists x. split; auto. rewrite (PR x X1). exact X2. }
  intros PRE. clear NX.
  assert (o = None).
  { inversion F3 as [|P1 e1 r1 X|P1 e1 r1 o1 _ F4]; subst P1 e1 r1.
    { exfalso. inversion X as [|i a q A1 A2 A3]; [congruence|]. subst i.
      assert (AA : anc (s_heap s) row q /\ live (s_heap s) row).
      { apply (anc_back (s_heap s) (s_heap s1)); auto. { intros j m M. destruct (KEEP _ _ M) as (m' & B1 & _ & B2 & _). exists m'. auto. } { apply (wf_parents _ _ W). }
        assert (a = ne1) by congruence. subst a. rewrite PE1 in A2. eapply wf_parents; eauto. }
      destruct AA as [_ (z & AA)]. congruence. }
    subst o1. inversion F4 as [|P1 e1 r1 X|P1 e1 r1 o1 _ F5]; subst P1 e1 r1.
    { exfalso. destruct X as [_ X]. apply X. exists ne1, n. split; auto. split; auto. split; [|congruence]. rewrite TE1, TE, T. apply nests_content; simpl; tauto. }
    subst o1. inversion F5 as [|P1 e1 r1 X|P1 e1 r1 o1 _ F6]; subst P1 e1 r1.
    { exfalso. destruct X as [_ (q & X & _)]. unfold parent_of in X. rewrite H1 in X. congruence. }
    subst o1. inversion F6. auto. }
  subst o. destruct Q as [[[X _] _]|[_ (h2 & E2 & W2 & ED)]]. { exfalso. unfold type_of in X. rewrite H1 in X. cbn in X. congruence. }
  exists (withh (addlog s1 (insert_log (s_heap s1) e row r t)) h2), (inserted (s_heap s1) ch e row r).
  split. { unfold try. rewrite E2. reflexivity. } split; [exact W2|]. split; [exact ED|].
  intros j. unfold inserted. destruct (oid_eqb r (Some row)) eqn:Q; [apply oid_eqb_eq in Q; contradiction|].
  unfold type_of. rewrite H1. cbn [option_map]. rewrite T. rewrite !without_notin by apply (fe_ch _ _ _ _ _ _ FE). reflexivity.
Qed.

Definition row_like (tag : bytes) (s : st) (e : id) (r : N) (n : node) : Prop := exists ne, s_heap s e = Some ne /\ n_type n = ELEMENT /\ n_name n = Some tag /\ n_ns n = n_ns ne /\
  n_prefix n = n_prefix ne /\ n_owner n = n_owner ne /\ n_attrs n = [] /\ n_ref n = r.

Lemma settle : forall (tag : bytes) s ch e row r s3 ch2 n3, wf s ch -> live (s_heap s) e -> wf s3 ch2 -> s_heap s row = None -> ch row = [] ->
  (forall x, r = Some x -> In x (ch e)) ->
  (forall j, ch2 j = if Nat.eqb j e then insert_at r [row] (ch e) else ch j) ->
  s_heap s3 row = Some n3 -> row_like tag s e 2 n3 ->
  (forall j m, s_heap s j = Some m -> exists m3, s_heap s3 j = Some m3 /\ kept_fields m m3 /\ n_ref m3 = n_ref m) ->
  exists s', node_unref row s3 = Ok tt s' /\ wf s' ch2 /\ added tag s e row r s'.
Proof.
  intros tag s ch e row r s3 ch2 n3 W LE W3 FR LF RIN CH HR (ne & He & T & NM & N1 & N2 & OW & AT & RF) K3. pose proof W as (WL & WT & WO & WR).
  destruct (unref_spec s3 ch2 row n3 W3 HR) as (h' & ch' & E & W' & Z). { rewrite RF. reflexivity. } { rewrite RF. reflexivity. }
  rewrite RF in Z. change (1 <? 2)%N with true in Z. cbn [orb] in Z. destruct Z as [-> ->]. set (h4 := hmod (s_heap s3) row ref_down) in *.
  exists (withh s3 h4). split; auto. split; auto. pose proof W' as (WL4 & WT4 & _). change (s_heap (withh s3 h4)) with h4 in WT4.
  assert (H4 : h4 row = Some (ref_down n3)) by (unfold h4; rewrite hmod_same, HR; reflexivity).
  assert (K4 : forall j m, s_heap s j = Some m -> exists m3, h4 j = Some m3 /\ kept_fields m m3 /\ n_ref m3 = n_ref m).
  { intros j m M. unfold h4. rewrite hmod_other by congruence. auto. }
  assert (ER : e <> row) by (destruct LE as (x & X); congruence).
  assert (IN : In row (ch2 e)). { rewrite CH, Nat.eqb_refl. destruct (insert_at_split r (ch e) RIN) as (a & b & _ & _ & I). rewrite I. apply in_or_app. right. left. auto. }
  destruct (wt_child _ _ WT4 _ _ IN) as (n4 & np & A1 & _ & _ & A4 & _). assert (n4 = ref_down n3) by congruence. subst n4.
  constructor; auto.
  - eapply wf_linked; exact W'.
  - exists (ref_down n3), ne. change (s_heap (withh s3 h4)) with h4. repeat (split; auto). rewrite ref_down_val; rewrite RF; reflexivity.
  - change (s_heap (withh s3 h4)) with h4. assert (Q : ch2 row = []). { rewrite CH. destruct (Nat.eqb_spec row e); [congruence|auto]. } rewrite <- Q. apply (ch_children _ _ WT4). exists (ref_down n3); auto.
  - intros p l C. assert (LP : live (s_heap s) p) by (destruct C as (a & A & _); exists a; auto). rewrite (children_det _ _ _ _ C (ch_children _ _ WT p LP)).
    destruct LP as (np0 & HP). destruct (K4 _ _ HP) as (np4 & HP4 & _). pose proof (ch_children _ _ WT4 p (ex_intro _ np4 HP4)) as Q. rewrite CH in Q.
    destruct (Nat.eqb_spec p e) as [->|]; exact Q.
  - intros j m M. destruct (K4 _ _ M) as (m4 & M4 & (X1&X2&X3&X4&X5&X6) & X7). exists m4. split; [exact M4|]. repeat (split; auto).
Qed.

Lemma edited_kept : forall s s0 s1 s2 ch e row nm, fresh_element s ch e row nm s0 -> (forall j n, s_heap s0 j = Some n -> exists n1, s_heap s1 j = Some n1 /\ kept_fields n n1) ->
  edited (s_heap s1) (s_heap s2) (Some row) row -> forall j m, s_heap s j = Some m -> exists m1 m2, s_heap s1 j = Some m1 /\ s_heap s2 j = Some m2 /\ kept_fields m m2 /\ n_ref m2 = n_ref m1.
Proof.
  intros s s0 s1 s2 ch e row nm FE K ED j m M. destruct (fe_keep _ _ _ _ _ _ FE _ _ M) as (m0 & A & B & C & _). destruct (K _ _ A) as (m1 & A1 & K1).
  destruct (ed_some _ _ _ _ ED _ _ A1) as (m2 & A2 & X1 & X2 & X3 & X4 & X5 & X6 & _ & _ & X9 & _). exists m1, m2. split; auto. split; auto.
  assert (NJ : j <> row) by (intros ->; pose proof (fe_none _ _ _ _ _ _ FE); congruence). apply Nat.eqb_neq in NJ. rewrite NJ in X9. split; auto.
  destruct B as (B1&B2&B3&B4&B5&_). destruct K1 as (K1&K2&K3&K4&K5&K6). repeat split; congruence.
Qed.

(** The row as it is when created, referred to twice after the insertion. *)
Lemma edited_row : forall (tag : bytes) s s0 s1 s2 ch e row n1, fresh_element s ch e row tag s0 -> s_heap s0 row = Some n1 -> s_heap s1 row = Some n1 ->
  edited (s_heap s1) (s_heap s2) (Some row) row -> exists n2, s_heap s2 row = Some n2 /\ row_like tag s e 2 n2.
Proof.
  intros tag s s0 s1 s2 ch e row n1 FE H0 H1 ED. destruct (fe_node _ _ _ _ _ _ FE) as (n & ne & H & He & T & NM & N1 & N2 & OW & P & AT & RF).
  assert (n1 = n) by congruence. subst n1. destruct (ed_some _ _ _ _ ED _ _ H1) as (m2 & A2 & X1 & X2 & X3 & X4 & X5 & X6 & _ & _ & X9 & X10 & _). rewrite Nat.eqb_refl, RF in X9.
  exists m2. split; auto. exists ne. split; auto. repeat (split; [congruence|]). split. { destruct X10 as [X|X]; [congruence|]. exfalso.
    pose proof (fe_wf _ _ _ _ _ _ FE) as (_ & _ & WO & _). destruct (wo_noowner _ _ WO _ _ H X) as [Q _]. congruence. }
  split; [congruence|]. exact X9.
Qed.

Section InsertTagged.
  Variable tag : bytes.
  Hypothesis TG : tag <> [] /\ tag <> [42%N].
  Variables (s : st) (ch : id -> list id) (e : id) (k : list id).
  Hypothesis W : wf s ch.
  Hypothesis R : roomy s.
  Hypothesis RW : items tag (s_heap s) e k.

  (** The call up to the choice of the position. *)
  Lemma insert_start : exists ne s0, s_heap s e = Some ne /\ n_type ne = ELEMENT /\ fresh_element s ch e (s_nxt s) tag s0 /\ roomy s0 /\ items tag (s_heap s0) e k /\
    forall index, insert_tagged tag e index s =
    (if (index <? -1)%Z || (Z.of_nat (length k) <? index)%Z then node_unref (s_nxt s) ;;; raise INDEX_SIZE_ERR
     else
      r <- (if (index =? -1)%Z || (index =? Z.of_nat (length k))%Z then try (append_child e (s_nxt s))
          else
            o <- item_in caseless_isequal tag e (as_u32 index) ;;
            r <- try (insert_before e (s_nxt s) o) ;;
            match o with Some x => node_unref x | None => ret tt end ;;;
            ret r) ;;
      node_unref (s_nxt s) ;;;
      match r with inl x => ret x | inr y => raise y end) s0.
  Proof.
    pose proof RW as ((ne & He & TE & _) & _). destruct (new_element s ch e ne tag W He TE) as (d & s0 & ED & EC & FE).
    pose proof (fresh_roomy _ _ _ _ _ _ FE R) as R0. assert (RW0 : items tag (s_heap s0) e k) by (eapply items_placed; [apply (fresh_placed _ _ _ _ _ _ FE)|exact RW]).
    exists ne, s0. split; auto. split; auto. split; auto. split; auto. split; auto. intros index. unfold insert_tagged. step ED. step (load_ok _ _ _ He). step EC.
    step (items_length_ok tag TG s0 ch e k (fe_wf _ _ _ _ _ _ FE) R0 RW0). rewrite as_i32_small by (eapply items_bound; eauto). reflexivity.
  Qed.

  Lemma insert_out : forall index, (index < -1 \/ Z.of_nat (length k) < index)%Z ->
    exists s', insert_tagged tag e index s = Exc INDEX_SIZE_ERR s' /\ unmoved s s'.
  Proof.
    intros index D. destruct insert_start as (ne & s0 & He & TE & FE & R0 & RW0 & E). rewrite E.
    assert (Q : (index <? -1)%Z || (Z.of_nat (length k) <? index)%Z = true) by lia. rewrite Q.
    destruct (drop_fresh _ _ _ _ _ _ W FE) as (s' & E' & UM). exists s'. split; auto. step E'. reflexivity.
  Qed.

  (** The item the row goes before. *)
  Lemma insert_item : forall s0 index x, fresh_element s ch e (s_nxt s) tag s0 -> roomy s0 -> items tag (s_heap s0) e k -> (0 <= index)%Z -> nth_error k (Z.to_nat index) = Some x ->
    exists s1 nx, item_in caseless_isequal tag e (as_u32 index) s0 = Ok (Some x) s1 /\ answered s0 (Some x) s1 /\ s_heap s0 x = Some nx /\ n_parent nx <> None /\ wf s1 ch /\
      (forall j n, s_heap s0 j = Some n -> s_heap s1 j = Some (if oid_eqb (Some x) (Some j) then set_ref (n_ref n + 1) n else n)) /\
      (forall j, s_heap s0 j = None -> s_heap s1 j = None).
  Proof.
    intros s0 index x FE R0 RW0 I0 NT. pose proof (items_bound _ _ _ _ RW) as BD. pose proof (fe_wf _ _ _ _ _ _ FE) as W0.
    assert (LT : Z.to_nat index < length k) by (apply nth_error_Some; congruence).
    assert (IU : as_u32 index = Z.to_N index) by (apply as_u32_small; lia).
    destruct (item_at tag TG s0 ch e k (as_u32 index) W0 R0 RW0) as (s1 & E1 & A1). { rewrite IU. unfold two32. lia. }
    assert (NN : N.to_nat (as_u32 index) = Z.to_nat index) by (rewrite IU; lia). rewrite NN, NT in E1, A1.
    destruct (item_parent tag s0 ch e k x W0 RW0 (nth_error_In _ _ NT)) as (nx & H & T & PN & AN & NE).
    exists s1, nx. split; auto. split; auto. split; auto. split; auto. split. { apply (answered_wf s0 s1 ch x nx W0 A1 H). eauto. }
    destruct A1 as (_ & _ & A1). split; intros j; [intros n J|intros J]; rewrite A1, J; reflexivity.
  Qed.

  Hypothesis NR : ~ read_only (s_heap s) e.

  Lemma insert_nested : forall index x, (0 <= index)%Z -> nth_error k (Z.to_nat index) = Some x -> parent_of (s_heap s) x <> Some e ->
    exists s', insert_tagged tag e index s = Exc NOT_FOUND_ERR s' /\ unmoved s s'.
  Proof.
    intros index x I0 NT PX. destruct insert_start as (ne & s0 & He & TE & FE & R0 & RW0 & E). rewrite E.
    assert (LT : Z.to_nat index < length k) by (apply nth_error_Some; congruence).
    assert (Q : (index <? -1)%Z || (Z.of_nat (length k) <? index)%Z = false) by lia. rewrite Q.
    assert (Q2 : (index =? -1)%Z || (index =? Z.of_nat (length k))%Z = false) by lia. rewrite Q2.
    destruct (insert_item s0 index x FE R0 RW0 I0 NT) as (s1 & nx & E1 & A1 & Hx & PN & W1 & K1 & KN).
    destruct (item_parent tag s ch e k x W RW (nth_error_In _ _ NT)) as (n & Hn & T & _).
    destruct (put_fresh s ch e (s_nxt s) tag s0 (Some x) W FE) with (s1 := s1) as [BAD _]; auto.
    { intros y Y. injection Y as <-. exists n. auto. } { exists ne. split; auto. split; auto. eauto. }
    { destruct (fe_keep _ _ _ _ _ _ FE _ _ He) as (ne0 & He0 & B & _). pose proof (K1 _ _ He0) as H1. eexists. split; [exact H1|]. destruct B as (_&_&_&_&_&_&_&_&_&_&_&B).
      pose proof (R _ _ He). unfold no_wrap. destruct (oid_eqb (Some x) (Some e)); cbn [n_ref set_ref]; rewrite B; lia. }
    pose proof (BAD (ex_intro _ x (conj eq_refl PX))) as EI. destruct (give_back s0 s1 ch x nx (fe_wf _ _ _ _ _ _ FE) A1 Hx PN (R0 _ _ Hx)) as (s2 & E2 & SM).
    destruct (drop_fresh _ _ _ _ _ _ W (same_fresh _ _ _ _ _ _ _ FE SM)) as (s' & E' & UM). exists s'. split; auto.
    rewrite bind_assoc. step E1. rewrite bind_assoc. step EI. rewrite bind_assoc. step E2. rewrite bind_ret. step E'. reflexivity.
  Qed.

  Lemma insert_ok : forall index, (-1 <= index <= Z.of_nat (length k))%Z -> (forall x, row_at k index = Some x -> parent_of (s_heap s) x = Some e) ->
    exists row s', insert_tagged tag e index s = Ok row s' /\ (exists ch', wf s' ch') /\ added tag s e row (row_at k index) s' /\ lists true tag (s_heap s') e (insert_at (row_at k index) [row] k).
  Proof.
    intros index IB PX. destruct insert_start as (ne & s0 & He & TE & FE & R0 & RW0 & E). set (row := s_nxt s) in *. pose proof (fe_wf _ _ _ _ _ _ FE) as W0.
    assert (LE : live (s_heap s) e) by (exists ne; auto). pose proof W as (WL & WT & _).
    assert (ND : NoDup k) by (destruct RW as (FI & _ & LS); eapply listed_nodup; eauto; eapply wf_linked; eauto).
    assert (RIN : forall x, row_at k index = Some x -> In x k /\ parent_of (s_heap s) x = Some e).
    { intros x X. split; auto. unfold row_at in X. destruct (index =? -1)%Z; [discriminate|]. eapply nth_error_In; eauto. }
    assert (RCH : forall x, row_at k index = Some x -> In x (ch e)).
    { intros x X. destruct (RIN x X) as [I P]. destruct (item_parent tag s ch e k x W RW I) as (n & Hn & T & _). unfold parent_of in P. rewrite Hn in P.
      destruct (wt_parent _ _ WT _ _ _ Hn P) as (np & _ & Y & _). apply Y. congruence. }
    assert (HEND : exists s', insert_tagged tag e index s = Ok row s' /\ (exists ch', wf s' ch') /\ added tag s e row (row_at k index) s').
    2:{ destruct HEND as (s' & E1 & WW & RR). exists row, s'. split; auto. split; auto. split; auto. eapply added_lists; eauto; [eapply wf_linked; eauto|]. apply listed_lists. apply RW. }
    assert (Q : (index <? -1)%Z || (Z.of_nat (length k) <? index)%Z = false) by lia.
    destruct (fe_node _ _ _ _ _ _ FE) as (n0 & _ & H0 & _).
    assert (HEE : exists ne0, s_heap s e = Some ne0 /\ n_type ne0 = ELEMENT /\ (n_ref ne0 + 8 < two32)%N) by (exists ne; split; auto; split; auto; eauto).
    destruct ((index =? -1)%Z || (index =? Z.of_nat (length k))%Z) eqn:Q2.
    - assert (RA : row_at k index = None). { unfold row_at. destruct (Z.eqb_spec index (-1)); auto. apply nth_error_None. lia. } rewrite RA.
      destruct (put_fresh s ch e row tag s0 None W FE) with (s1 := s0) as [_ GOOD]; auto. { discriminate. }
      { destruct (fe_keep _ _ _ _ _ _ FE _ _ He) as (ne0 & He0 & B & _). exists ne0. split; auto. destruct B as (_&_&_&_&_&_&_&_&_&_&_&B). pose proof (R _ _ He). unfold no_wrap. rewrite B. lia. }
      destruct GOOD as (s2 & ch2 & E2 & W2 & ED & CH). { discriminate. }
      destruct (edited_row tag s s0 s0 s2 ch e row n0 FE H0 H0 ED) as (n2 & H2 & LK).
      destruct (settle tag s ch e row None s2 ch2 n2 W LE W2 (fe_none _ _ _ _ _ _ FE) (fe_leaf _ _ _ _ _ _ FE)) as (s' & E3 & W9 & RR); auto. { discriminate. }
      { intros j m M. destruct (edited_kept s s0 s0 s2 ch e row tag FE) with (j := j) (m := m) as (m1 & m2 & M1 & M2 & KF & RF); auto. { intros a b X. exists b. split; auto. repeat split. }
        exists m2. split; auto. split; auto. destruct (fe_keep _ _ _ _ _ _ FE _ _ M) as (m0 & A & B & _). assert (m0 = m1) by congruence. subst. destruct B as (_&_&_&_&_&_&_&_&_&_&_&B). congruence. }
      exists s'. split; [|split; [exists ch2; exact W9|exact RR]]. rewrite E. rewrite Q, Q2. unfold append_child. step E2. step E3. reflexivity.
    - assert (RA : exists x, row_at k index = Some x /\ nth_error k (Z.to_nat index) = Some x).
      { unfold row_at. destruct (Z.eqb_spec index (-1)); [lia|]. destruct (nth_error k (Z.to_nat index)) as [x|] eqn:Z; [exists x; auto|]. apply nth_error_None in Z. lia. }
      destruct RA as (x & RA & NT). rewrite RA in *. destruct (insert_item s0 index x FE R0 RW0 ltac:(lia) NT) as (s1 & nx & E1 & A1 & Hx & PN & W1 & K1 & KN).
      destruct (item_parent tag s ch e k x W RW (nth_error_In _ _ NT)) as (n & Hn & T & _).
      destruct (put_fresh s ch e row tag s0 (Some x) W FE) with (s1 := s1) as [_ GOOD]; auto.
      { intros y Y. injection Y as <-. exists n. auto. }
      { destruct (fe_keep _ _ _ _ _ _ FE _ _ He) as (ne0 & He0 & B & _). pose proof (K1 _ _ He0) as H1. eexists. split; [exact H1|]. destruct B as (_&_&_&_&_&_&_&_&_&_&_&B).
        pose proof (R _ _ He). unfold no_wrap. destruct (oid_eqb (Some x) (Some e)); cbn [n_ref set_ref]; rewrite B; lia. }
      destruct (GOOD PX) as (s2 & ch2 & E2 & W2 & ED & CH).
      assert (NX : x <> row). { intros ->. pose proof (fe_none _ _ _ _ _ _ FE). congruence. }
      assert (H1 : s_heap s1 row = Some n0). { rewrite (K1 _ _ H0). rewrite oid_other by auto. reflexivity. }
      destruct (edited_row tag s s0 s1 s2 ch e row n0 FE H0 H1 ED) as (n2 & H2 & LK).
      assert (K2 : forall j m, s_heap s j = Some m -> exists m2, s_heap s2 j = Some m2 /\ kept_fields m m2 /\ n_ref m2 = if Nat.eqb j x then (n_ref m + 1)%N else n_ref m).
      { intros j m M. destruct (edited_kept s s0 s1 s2 ch e row tag FE) with (j := j) (m := m) as (m1 & m2 & M1 & M2 & KF & RF); auto.
        { intros a b X. eexists. split; [apply K1; exact X|]. destruct (oid_eqb (Some x) (Some a)); repeat split. }
        exists m2. split; auto. split; auto. destruct (fe_keep _ _ _ _ _ _ FE _ _ M) as (m0 & A & B & _). destruct B as (_&_&_&_&_&_&_&_&_&_&_&B). rewrite (K1 _ _ A) in M1.
        destruct (Nat.eqb_spec j x) as [->|NJ]; [rewrite oid_refl in M1|rewrite oid_other in M1 by auto]; injection M1 as <-; rewrite RF; cbn [n_ref set_ref]; congruence. }
      destruct (K2 _ _ Hn) as (nx2 & HX2 & _ & RX2). rewrite Nat.eqb_refl in RX2. pose proof (R _ _ Hn) as RB.
      assert (PX2 : n_parent nx2 = Some e).
      { assert (I : In x (ch2 e)). { rewrite CH, Nat.eqb_refl. destruct (insert_at_split (Some x) (ch e)) as (a & b & EL & HD & INS). { intros i II. injection II as <-. auto. }
          rewrite INS. apply in_or_app. right. right. destruct b; [discriminate|]. injection HD as ->. left; auto. }
        destruct W2 as (_ & WT2 & _). destruct (wt_child _ _ WT2 _ _ I) as (a & b & A1' & _ & _ & A4 & _). congruence. }
      destruct (unref_spec s2 ch2 x nx2 W2 HX2) as (h3 & ch3 & E3 & W3 & Z). { lia. } { lia. }
      rewrite PX2 in Z. cbn [is_none negb] in Z. rewrite orb_true_r in Z. destruct Z as [-> ->].
      destruct (settle tag s ch e row (Some x) (withh s2 (hmod (s_heap s2) x ref_down)) ch2 n2 W LE W3 (fe_none _ _ _ _ _ _ FE) (fe_leaf _ _ _ _ _ _ FE)) as (s' & E4 & W9 & RR); auto.
      { cbn [withh s_heap]. rewrite hmod_other by auto. exact H2. }
      { intros j m M. destruct (K2 _ _ M) as (m2 & M2 & KF & RF). cbn [withh s_heap]. destruct (Nat.eqb_spec j x) as [->|NJ].
        - exists (ref_down m2). rewrite hmod_same, M2. split; auto. split; auto. assert (m = n) by congruence. subst m. rewrite ref_down_val; lia.
        - exists m2. rewrite hmod_other by auto. auto. }
      exists s'. split; [|split; [exists ch2; exact W9|exact RR]]. rewrite E. rewrite Q, Q2. rewrite bind_assoc. step E1. rewrite bind_assoc. step E2. rewrite bind_assoc. step E3. rewrite bind_ret. step E4. reflexivity.
  Qed.
End InsertTagged.

Lemma section_insert_out : forall s ch e k, wf s ch -> roomy s -> rows (s_heap s) e k -> forall index, (index < -1 \/ Z.of_nat (length k) < index)%Z ->
  exists s', section_insert_row e index s = Exc INDEX_SIZE_ERR s' /\ unmoved s s'.
Proof. exact (insert_out s_TR row_name). Qed.
Lemma section_insert_nested : forall s ch e k, wf s ch -> roomy s -> rows (s_heap s) e k -> ~ read_only (s_heap s) e ->
  forall index x, (0 <= index)%Z -> nth_error k (Z.to_nat index) = Some x -> parent_of (s_heap s) x <> Some e ->
  exists s', section_insert_row e index s = Exc NOT_FOUND_ERR s' /\ unmoved s s'.
Proof. exact (insert_nested s_TR row_name). Qed.
Lemma section_insert_ok : forall s ch e k, wf s ch -> roomy s -> rows (s_heap s) e k -> ~ read_only (s_heap s) e ->
  forall index, (-1 <= index <= Z.of_nat (length k))%Z -> (forall x, row_at k index = Some x -> parent_of (s_heap s) x = Some e) ->
  exists row s', section_insert_row e index s = Ok row s' /\ (exists ch', wf s' ch') /\ rowed s e row (row_at k index) s' /\ lists true s_TR (s_heap s') e (insert_at (row_at k index) [row] k).
Proof. exact (insert_ok s_TR row_name). Qed.
