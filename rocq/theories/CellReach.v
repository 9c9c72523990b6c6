(** Cells and row indexes in every document a client can build. *)
From Coq Require Import List Arith NArith ZArith Bool Lia.
From Verif Require Import Base HeapModel HeapSpec HeapInv HeapOps HistModel HistProofs TreeSpec TreeProofs TreeProofs3 WalkModel WalkSpec WalkProofs WalkReach ContentProofs
  HtmlModel HtmlSpec HtmlBase HtmlSelect HtmlTake HtmlRows HtmlTable HtmlInsert HtmlTables HtmlBodies HtmlReach CellModel CellSpec CellProofs.
Import ListNotations.

Lemma part_element : forall name s x, part name (s_heap s) x -> type_of (s_heap s) x = Some ELEMENT.
Proof. intros name s x (n & H & T & _). unfold type_of. rewrite H. cbn. congruence. Qed.

Lemma nodup_place : forall (x : id) a b c i, NoDup (a ++ x :: b) -> a ++ x :: b = c -> nth_error c i = Some x -> i = length a.
Proof.
  intros x a b c i ND E N. subst c. rewrite NoDup_nth_error in ND. apply ND.
  - apply nth_error_Some. congruence.
  - rewrite N, nth_error_app2, Nat.sub_diag by auto. reflexivity.
Qed.

(** The rows before the row at a place. *)
Lemma picks_before : forall (P : id -> Prop) a x b k i, picks P (a ++ x :: b) k -> NoDup k -> nth_error k i = Some x -> P x -> exists ka, picks P a ka /\ length ka = i.
Proof.
  intros P a x b k i K ND N X. destruct (picks_app _ _ _ _ _ K) as (ka & kb & -> & KA & KB). inversion KB as [|y l k PX Y|y l k PX Y]; subst; [|contradiction].
  exists ka. split; auto. symmetry. eapply nodup_place; eauto.
Qed.

Lemma flat_index : forall s ch e k i x, wf s ch -> rows (s_heap s) e k -> flat (s_heap s) e k -> nth_error k i = Some x -> section_row_index x s = Ok (Z.of_nat i) s.
Proof.
  intros s ch e k i x W RW FL N. pose proof (wf_linked _ _ W) as L. pose proof W as (_ & WT & _). pose proof RW as (FI & NI & LS). pose proof LS as (l0 & O & B & P). assert (ND : NoDup k) by (eapply listed_nodup; eauto).
  assert (IX : In x k) by (eapply nth_error_In; eauto). destruct (picks_in _ _ _ _ P x IX) as [_ PX].
  assert (LE : live (s_heap s) e) by (eapply order_members; [exact O|]; destruct (order_first _ _ _ O) as (r & ->); left; auto).
  pose proof (ch_children _ _ WT e LE) as C. destruct (flat_children s e k (ch e) L RW FL C) as [PK BL]. destruct (picks_in _ _ _ _ PK x IX) as [I _].
  destruct (in_split _ _ I) as (a & b & EQ). rewrite EQ in *. destruct (picks_before _ _ _ _ _ _ PK ND N PX) as (ka & KA & <-).
  eapply section_row_index_ok; eauto; [eapply part_element; exact PX|rewrite app_length in BL; lia|exists ka; auto].
Qed.

Lemma flat_round : forall s ch e k index, wf s ch -> roomy s -> rows (s_heap s) e k -> flat (s_heap s) e k -> ~ read_only (s_heap s) e -> (-1 <= index <= Z.of_nat (length k))%Z ->
  exists row s', section_insert_row e index s = Ok row s' /\ rowed s e row (row_at k index) s' /\
    section_row_index row s' = Ok (if (index =? -1)%Z then Z.of_nat (length k) else index) s'.
Proof.
  intros s ch e k index W R RW FL NR IB.
  destruct (section_insert_ok s ch e k W R RW NR index IB) as (row & s' & E & (ch' & W') & RR & LS').
  { intros x X. apply FL. unfold row_at in X. destruct (index =? -1)%Z; [discriminate|]. eapply nth_error_In; eauto. }
  exists row, s'. split; auto. split; auto.
  pose proof (wf_linked _ _ W) as L. pose proof W as (_ & WT & _). pose proof RW as (FI & NI & LS). pose proof LS as (l0 & O & B & P). assert (ND : NoDup k) by (eapply listed_nodup; eauto).
  assert (LE : live (s_heap s) e) by (eapply order_members; [exact O|]; destruct (order_first _ _ _ O) as (r & ->); left; auto).
  pose proof (ch_children _ _ WT e LE) as C. destruct (flat_children s e k (ch e) L RW FL C) as [PK BL].
  assert (RIN : forall x, row_at k index = Some x -> In x (ch e) /\ part s_TR (s_heap s) x).
  { intros x X. unfold row_at in X. destruct (index =? -1)%Z; [discriminate|]. apply (picks_in _ _ _ _ PK). eapply nth_error_In; eauto. }
  destruct (insert_at_split (row_at k index) (ch e)) as (a & b & EQ & HB & INS). { intros x X. apply RIN; auto. }
  pose proof (rw_lists _ _ _ _ _ _ RR e (ch e) C) as C'. rewrite Nat.eqb_refl, INS in C'. cbn [app] in C'.
  assert (KA : exists ka, picks (part s_TR (s_heap s)) a ka /\ Z.of_nat (length ka) = if (index =? -1)%Z then Z.of_nat (length k) else index).
  { destruct (row_at k index) as [x|] eqn:RA.
    - destruct b as [|y b]; [discriminate|]. cbn in HB. injection HB as ->. rewrite EQ in PK. unfold row_at in RA. destruct (index =? -1)%Z eqn:Q; [discriminate|].
      destruct (picks_before _ _ _ _ _ _ PK ND RA) as (ka & KA & LK). { apply RIN; auto. } exists ka. split; auto. lia.
    - destruct b as [|y b]; [|discriminate]. rewrite app_nil_r in EQ. exists k. rewrite <- EQ. split; auto. unfold row_at in RA. destruct (index =? -1)%Z eqn:Q; auto. apply nth_error_None in RA. lia. }
  destruct KA as (ka & KA & <-). destruct (rw_row _ _ _ _ _ _ RR) as (nr & ne & HR & _ & TR & NMR & _).
  apply (section_row_index_ok s' ch' e row a b W' C').
  - unfold type_of. rewrite HR. cbn. congruence.
  - rewrite EQ, app_length in BL. lia.
  - exists ka. split; auto. eapply picks_change; [|exact KA]. intros x I.
    assert (LX : live (s_heap s) x). { destruct (wt_child _ _ WT e x) as (n & _ & H & _). { rewrite EQ. apply in_or_app; auto. } exists n; auto. }
    destruct LX as (n & H). destruct (rw_nodes _ _ _ _ _ _ RR x n H) as (n' & H' & T' & N' & _). unfold part, has_tag.
    split; intros (m & M & X); [assert (m = n) by congruence|assert (m = n') by congruence]; subst m; [exists n'|exists n]; (split; [assumption|]); [rewrite T', N'|rewrite <- T', <- N']; exact X.
Qed.

Lemma cell_name : s_TD <> [] /\ s_TD <> [42%N].
Proof. split; discriminate. Qed.

Section Cells.
  Variables (j : nat) (s : st) (g : client) (e : id) (k : list id).
  Hypothesis RE : reach j s g.
  Hypothesis B : briefly j.

  Section Row.
  Hypothesis CE : cells (s_heap s) e k.
  Lemma reach_cell_out : forall index, (index < -1 \/ Z.of_nat (length k) < index)%Z -> exists s', row_insert_cell e index s = Exc INDEX_SIZE_ERR s' /\ unmoved s s'.
  Proof. intros index D. destruct (reach_roomy _ _ _ RE B) as [[ch W] [R _]]. eapply (insert_out s_TD cell_name); eauto. Qed.
  Lemma reach_cell_nested : forall index x, ~ read_only (s_heap s) e -> (0 <= index)%Z -> nth_error k (Z.to_nat index) = Some x -> parent_of (s_heap s) x <> Some e ->
    exists s', row_insert_cell e index s = Exc NOT_FOUND_ERR s' /\ unmoved s s'.
  Proof. intros index x NR I X P. destruct (reach_roomy _ _ _ RE B) as [[ch W] [R _]]. eapply (insert_nested s_TD cell_name); eauto. Qed.
  Lemma reach_cell : forall index, ~ read_only (s_heap s) e -> (-1 <= index <= Z.of_nat (length k))%Z -> (forall x, row_at k index = Some x -> parent_of (s_heap s) x = Some e) ->
    exists cell s', row_insert_cell e index s = Ok cell s' /\ celled s e cell (row_at k index) s' /\ lists true s_TD (s_heap s') e (insert_at (row_at k index) [cell] k).
  Proof.
    intros index NR IB PX. destruct (reach_roomy _ _ _ RE B) as [[ch W] [R _]]. destruct (insert_ok s_TD cell_name s ch e k W R CE NR index IB PX) as (cell & s' & E & _ & Q).
    exists cell, s'. auto.
  Qed.
  Lemma reach_uncell_out : forall index, (index < -1 \/ Z.of_nat (length k) <= index)%Z \/ k = [] -> row_delete_cell e index s = Exc INDEX_SIZE_ERR s.
  Proof. intros index D. destruct (reach_roomy _ _ _ RE B) as [[ch W] [R _]]. eapply (delete_out s_TD cell_name); eauto. Qed.
  Lemma reach_uncell : forall index x, ~ read_only (s_heap s) e -> (-1 <= index)%Z -> row_named k index = Some x -> parent_of (s_heap s) x = Some e ->
    exists s' k', row_delete_cell e index s = Ok tt s' /\ taken s x s' /\ lists true s_TD (s_heap s') e k' /\ picks (fun y => ~ anc (s_heap s) x y) k k'.
  Proof.
    intros index x NR I X P. destruct (reach_roomy _ _ _ RE B) as [[ch W] [R _]]. destruct (delete_ok s_TD cell_name s ch e k index x W R CE I X P NR) as (s' & k' & E & _ & Q).
    exists s', k'. auto.
  Qed.
  Lemma reach_uncell_nested : forall index x, (-1 <= index)%Z -> row_named k index = Some x -> parent_of (s_heap s) x <> Some e ->
    exists s', row_delete_cell e index s = Exc NOT_FOUND_ERR s' /\ same_state s s'.
  Proof. intros index x I X P. destruct (reach_roomy _ _ _ RE B) as [[ch W] [R _]]. eapply (delete_nested s_TD cell_name); eauto. Qed.
  End Row.

  Lemma reach_index : forall i x, rows (s_heap s) e k -> flat (s_heap s) e k -> nth_error k i = Some x -> section_row_index x s = Ok (Z.of_nat i) s.
  Proof. intros i x RW FL N. destruct (reach_roomy _ _ _ RE B) as [[ch W] _]. eapply flat_index; eauto. Qed.
  Lemma reach_round : forall index, rows (s_heap s) e k -> flat (s_heap s) e k -> ~ read_only (s_heap s) e -> (-1 <= index <= Z.of_nat (length k))%Z ->
    exists row s', section_insert_row e index s = Ok row s' /\ rowed s e row (row_at k index) s' /\
      section_row_index row s' = Ok (if (index =? -1)%Z then Z.of_nat (length k) else index) s'.
  Proof. intros index RW FL NR IB. destruct (reach_roomy _ _ _ RE B) as [[ch W] [R _]]. eapply flat_round; eauto. Qed.
End Cells.

Section Index.
  Variables (j : nat) (s : st) (g : client) (p row : id) (a b : list id).
  Hypothesis RE : reach j s g.
  Hypothesis B : briefly j.

  Lemma reach_index_detached : parent_of (s_heap s) row = None -> live (s_heap s) row -> section_row_index row s = Bad NullDeref /\ row_index row s = Bad NullDeref.
  Proof. intros P (n & H). unfold parent_of in P. rewrite H in P. eapply index_detached; eauto. Qed.

  Hypothesis C : children (s_heap s) p (a ++ row :: b).
  Hypothesis PR : part s_TR (s_heap s) row.
  Hypothesis SM : (N.of_nat (length a) < 2147483648)%N.

  Lemma reach_count : forall m, row_count (s_heap s) a m -> section_row_index row s = Ok (Z.of_nat m) s.
  Proof. intros m RC. destruct (reach_roomy _ _ _ RE B) as [[ch W] _]. eapply section_row_index_ok; eauto. eapply part_element; eauto. Qed.
  Lemma reach_orphan : parent_of (s_heap s) p = None -> row_index row s = Bad NullDeref.
  Proof.
    intros P. destruct (reach_roomy _ _ _ RE B) as [[ch W] _]. pose proof C as (np & HP & _). unfold parent_of in P. rewrite HP in P. eapply row_index_orphan; eauto. eapply part_element; eauto.
  Qed.
  Lemma reach_elsewhere : forall q, parent_of (s_heap s) p = Some q -> type_of (s_heap s) p = Some ELEMENT -> type_of (s_heap s) q = Some ELEMENT ->
    ~ part s_TABLE (s_heap s) q \/ (~ part s_THEAD (s_heap s) p /\ ~ part s_TBODY (s_heap s) p /\ ~ part s_TFOOT (s_heap s) p) -> row_index row s = Exc HIERARCHY_REQUEST_ERR s.
  Proof.
    intros q P TP TQ D. destruct (reach_roomy _ _ _ RE B) as [[ch W] _]. pose proof C as (np & HP & _). unfold parent_of in P. rewrite HP in P. unfold type_of in TP, TQ. rewrite HP in TP.
    destruct (s_heap s q) as [nq|] eqn:HQ; [|discriminate]. cbn in TP, TQ. eapply row_index_elsewhere; eauto; [eapply part_element; eauto|congruence|congruence].
  Qed.

  Variables (q : id) (c d : list id).
  Hypothesis Q : children (s_heap s) q (c ++ p :: d).
  Hypothesis TP : part s_TABLE (s_heap s) q.
  Lemma reach_index_head : forall m, row_count (s_heap s) a m -> part s_THEAD (s_heap s) p -> row_index row s = Ok (Z.of_nat m) s.
  Proof. intros m RC PH. destruct (reach_roomy _ _ _ RE B) as [[ch W] _]. eapply row_index_head; eauto. eapply part_element; eauto. Qed.
  Lemma reach_index_body : forall m mh mb, row_count (s_heap s) a m -> part s_TBODY (s_heap s) p \/ part s_TFOOT (s_heap s) p -> head_rows (s_heap s) (c ++ p :: d) mh ->
    body_rows (s_heap s) c mb -> names_elements s_TBODY (s_heap s) c -> (N.of_nat (length a + mh + mb) < 2147483648)%N ->
    exists s', row_index row s = Ok (Z.of_nat (m + mh + mb)) s' /\ same_state s s'.
  Proof. intros. destruct (reach_roomy _ _ _ RE B) as [[ch W] [R _]]. eapply row_index_body; eauto. eapply part_element; eauto. Qed.
End Index.

(** Two rows of one table with the same index. *)
Lemma reach_twins : forall j s g q c f d b e x x' af bf ab bb m mh mb, reach j s g -> briefly j -> children (s_heap s) q (c ++ f :: d ++ b :: e) -> part s_TABLE (s_heap s) q ->
  part s_TFOOT (s_heap s) f -> part s_TBODY (s_heap s) b -> names_elements s_TBODY (s_heap s) (c ++ f :: d) -> head_rows (s_heap s) (c ++ f :: d ++ b :: e) mh ->
  body_rows (s_heap s) c mb -> body_rows (s_heap s) (c ++ f :: d) mb -> children (s_heap s) f (af ++ x :: bf) -> children (s_heap s) b (ab ++ x' :: bb) ->
  part s_TR (s_heap s) x -> part s_TR (s_heap s) x' -> row_count (s_heap s) af m -> row_count (s_heap s) ab m ->
  (N.of_nat (length af + length ab + mh + mb) < 2147483648)%N ->
  x <> x' /\ exists s' s'', row_index x s = Ok (Z.of_nat (m + mh + mb)) s' /\ row_index x' s = Ok (Z.of_nat (m + mh + mb)) s''.
Proof.
  intros j s g q c f d b e x x' af bf ab bb m mh mb RE B C T PF PB NE HR B1 B2 CF CB PX PX' M1 M2 SM. destruct (reach_roomy _ _ _ RE B) as [[ch W] _]. pose proof W as (_ & WT & _). split.
  - intros <-. assert (U : forall p a b', children (s_heap s) p (a ++ x :: b') -> parent_of (s_heap s) x = Some p).
    { intros p a b' C0. assert (EC : a ++ x :: b' = ch p) by (eapply TreeProofs3.children_det; [exact C0|apply (ch_children _ _ WT); destruct C0 as (n & H & _); exists n; auto]).
      assert (I : In x (ch p)) by (rewrite <- EC; apply in_or_app; right; left; auto). destruct (wt_child _ _ WT _ _ I) as (n & _ & H & _ & _ & PA & _). unfold parent_of. rewrite H. auto. }
    pose proof (U _ _ _ CF) as U1. pose proof (U _ _ _ CB) as U2. rewrite U1 in U2. injection U2 as ->. destruct PF as (n & H & _ & [D|(y & Y & F)]); [discriminate|]. destruct PB as (n' & H' & _ & [D|(y' & Y' & F')]); [discriminate|].
    assert (n' = n) by congruence. subst n'. assert (y' = y) by congruence. subst y'. rewrite F in F'. discriminate.
  - destruct (reach_index_body j s g f x af bf RE B CF PX q c (d ++ b :: e) C T m mh mb) as (s1 & E1 & _); auto. { intros y n z I. apply NE. apply in_or_app; auto. } { lia. }
    assert (EQ : c ++ f :: d ++ b :: e = (c ++ f :: d) ++ b :: e) by (rewrite <- app_assoc; reflexivity). rewrite EQ in *.
    destruct (reach_index_body j s g b x' ab bb RE B CB PX' q (c ++ f :: d) e C T m mh mb) as (s2 & E2 & _); auto. { lia. }
    exists s1, s2. auto.
Qed.
