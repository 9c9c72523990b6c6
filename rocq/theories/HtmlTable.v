(** Removing options, and the rows of a section. *)
From Coq Require Import List Arith NArith ZArith Bool Lia ZifyBool ZifyNat ZifyN.
From Verif Require Import Base HeapModel HeapSpec HeapInv HeapExec HeapTree HeapInsert HeapFrame HeapCreate HeapOps HeapRemoveOp HeapAttrNode HeapContent HeapUnref HistModel HistProofs TreeSpec TreeProofs TreeProofs3
  StringModel WalkModel WalkSpec WalkProofs WalkLists WalkFinds WalkReach ContentProofs ImportProofs HtmlModel HtmlSpec HtmlBase HtmlSelect HtmlTake HtmlRows.
Import ListNotations.
Local Open Scope dom_scope.

Lemma listed_lists : forall c name h e k, listed c name h e k -> lists c name h e k.
Proof. intros c name h e k (l & O & _ & P). exists l. auto. Qed.

(** A node strictly below an element: its parent is no document. *)
Lemma below_parent : forall s ch e x n, wf s ch -> type_of (s_heap s) e = Some ELEMENT -> anc (s_heap s) e x -> x <> e -> s_heap s x = Some n ->
  exists p, n_parent n = Some p /\ live (s_heap s) p /\ type_of (s_heap s) p <> Some DOCUMENT.
Proof.
  intros s ch e x n W TE A NE H. pose proof W as (WL & WT & WO & WR). inversion A as [|i n0 p H0 P A']; subst; [contradiction|]. assert (n0 = n) by congruence. subst n0.
  exists p. split; auto. split; [eapply wf_parents; eauto|]. intros TP. unfold type_of in TP. destruct (s_heap s p) as [np|] eqn:HP; [|discriminate]. cbn in TP. injection TP as TP.
  destruct (wo_doc _ _ WO _ _ HP TP) as (_ & Z & _). inversion A' as [|i n1 q H1 P1 A1]; subst; [|congruence]. unfold type_of in TE. rewrite HP in TE. cbn in TE. congruence.
Qed.
Lemma not_both : forall s ch e x, wf s ch -> live (s_heap s) e -> live (s_heap s) x -> anc (s_heap s) e x -> x <> e -> ~ anc (s_heap s) x e.
Proof.
  intros s ch e x W LE LX A NE B. pose proof W as (WL & WT & WO & WR). apply NE. apply (HeapInv.anc_antisym (s_heap s)); auto; apply (wt_rooted _ _ WT); auto.
Qed.

(** ** Removing an option *)

Lemma select_remove_out : forall s ch e k index, wf s ch -> roomy s -> options (s_heap s) e k -> (index < 0 \/ Z.of_nat (length k) <= index)%Z ->
  select_remove e index s = Ok tt s.
Proof.
  intros s ch e k index W R OP D. unfold select_remove. step (select_length_ok s ch e k W R OP). rewrite as_i32_small by (eapply options_bound; eauto).
  assert (Q : (index <? 0)%Z || (Z.of_nat (length k) <=? index)%Z = true) by lia. rewrite Q. reflexivity.
Qed.
Lemma select_remove_in : forall s ch e k index x, wf s ch -> roomy s -> options (s_heap s) e k -> (0 <= index)%Z -> nth_error k (Z.to_nat index) = Some x ->
  ~ read_only (s_heap s) x ->
  exists s' k', select_remove e index s = Ok tt s' /\ taken s x s' /\ lists false s_OPTION (s_heap s') e k' /\ picks (fun y => ~ anc (s_heap s) x y) k k'.
Proof.
  intros s ch e k index x W R OP I0 NT NR. pose proof (options_bound _ _ _ OP) as BD.
  assert (LT : Z.to_nat index < length k) by (apply nth_error_Some; congruence).
  assert (IU : as_u32 index = Z.to_N index) by (apply as_u32_small; lia).
  destruct (select_item s ch e k (as_u32 index) W R OP) as (s1 & E1 & A1). { rewrite IU. unfold two32. lia. }
  assert (NN : N.to_nat (as_u32 index) = Z.to_nat index) by (rewrite IU; lia). rewrite NN, NT in E1, A1.
  destruct (option_parent s ch e k x W OP (nth_error_In _ _ NT)) as (n & H & T & PN & AN & NE).
  assert (TE : type_of (s_heap s) e = Some ELEMENT). { destruct OP as ((ne & HE & TE & _) & _). unfold type_of. rewrite HE. cbn. congruence. }
  assert (LE : live (s_heap s) e) by (destruct OP as ((ne & HE & _) & _); exists ne; auto).
  destruct (below_parent s ch e x n W TE AN NE H) as (p & P & LP & TP).
  destruct (item_state s s1 ch x n W R H A1) as (W1 & H1 & _).
  destruct (take_ok s s1 ch p x n W R H T A1 LP P TP) as (s' & ch' & E2 & W' & TK). { eapply parent_of_element_writable; eauto. }
  destruct (taken_lists s ch s' x false s_OPTION e k W TK) as (k' & Q1 & Q2); auto. { exists n; auto. } { apply listed_lists. apply OP. } { apply (not_both s ch e x W LE); auto. exists n; auto. }
  exists s', k'. split; auto. unfold select_remove. step (select_length_ok s ch e k W R OP). rewrite as_i32_small by auto.
  assert (Q : (index <? 0)%Z || (Z.of_nat (length k) <=? index)%Z = false) by lia. rewrite Q. step E1. cbn [deref]. rewrite bind_ret. step (load_ok _ _ _ H1).
  cbn [n_parent set_ref]. rewrite P. cbn [deref]. rewrite bind_ret. exact E2.
Qed.

(** ** Rows *)

Section Tagged.
  Variable tag : bytes.
  Hypothesis TG : tag <> [] /\ tag <> [42%N].

Lemma items_bound : forall h e k, items tag h e k -> (N.of_nat (length k) < 2147483648)%N.
Proof. intros h e k (_ & _ & l & O & B & P). pose proof (picks_length _ _ _ _ P). lia. Qed.
Lemma items_placed : forall h h' : heap, (forall j n, h j = Some n -> exists n', h' j = Some n' /\ placed n n') -> forall e k, items tag h e k -> items tag h' e k.
Proof. intros h h' K e k (A & B & C). split; [eapply filled_placed; eauto|]. split; auto. eapply listed_placed; eauto. Qed.
Lemma items_length_ok : forall s ch e k, wf s ch -> roomy s -> items tag (s_heap s) e k -> count_in caseless_isequal tag e s = Ok (N.of_nat (length k)) s.
Proof.
  intros s ch e k W R (FI & _ & LS). destruct TG. apply (count_ok s true tag e); auto; [eapply wf_linked; eauto|apply roomy_counted; auto].
Qed.
Lemma item_at : forall s ch e k index, wf s ch -> roomy s -> items tag (s_heap s) e k -> (index + 1 < two32)%N ->
  exists s', item_in caseless_isequal tag e index s = Ok (nth_error k (N.to_nat index)) s' /\ answered s (nth_error k (N.to_nat index)) s'.
Proof.
  intros s ch e k index W R (FI & _ & LS) B. destruct TG. apply (item_ok s true tag e); auto; [eapply wf_linked; eauto|apply roomy_counted; auto].
Qed.
Lemma item_parent : forall s ch e k x, wf s ch -> items tag (s_heap s) e k -> In x k ->
  exists n, s_heap s x = Some n /\ n_type n = ELEMENT /\ n_parent n <> None /\ anc (s_heap s) e x /\ x <> e.
Proof.
  intros s ch e k x W (FI & NI & LS) I. pose proof (wf_linked _ _ W) as L. destruct (listed_tag s true tag e L FI k LS x I) as (n & H & (T & _) & A).
  assert (NE : x <> e) by (intros ->; contradiction). exists n. split; auto. split; auto. split; [eapply anc_parent; eauto|auto].
Qed.
Lemma items_element : forall h e k, items tag h e k -> type_of h e = Some ELEMENT.
Proof. intros h e k ((ne & HE & TE & _) & _). unfold type_of. rewrite HE. cbn. congruence. Qed.

(** ** Deleting a row of a section *)

Lemma delete_out : forall s ch e k index, wf s ch -> roomy s -> items tag (s_heap s) e k ->
  (index < -1 \/ Z.of_nat (length k) <= index)%Z \/ k = [] -> delete_tagged tag e index s = Exc INDEX_SIZE_ERR s.
Proof.
  intros s ch e k index W R RW D. unfold delete_tagged. step (items_length_ok s ch e k W R RW). rewrite as_i32_small by (eapply items_bound; eauto).
  assert (Q : (index <? -1)%Z || (Z.of_nat (length k) <=? index)%Z || ((index =? -1)%Z && (N.of_nat (length k) =? 0)%N) = true).
  { destruct D as [D| ->]; [lia|]. cbn [length]. lia. }
  rewrite Q. reflexivity.
Qed.
Lemma delete_item : forall s ch e k index x, wf s ch -> roomy s -> items tag (s_heap s) e k -> (-1 <= index)%Z -> row_named k index = Some x ->
  exists s1, answered s (Some x) s1 /\ delete_tagged tag e index s = drop_item e x s1.
Proof.
  intros s ch e k index x W R RW I0 NT. pose proof (items_bound _ _ _ RW) as BD. unfold row_named in NT.
  assert (LT : (0 < Z.of_nat (length k))%Z) by (destruct k; [destruct (index =? -1)%Z; [discriminate|destruct (Z.to_nat index); discriminate]|cbn [length]; lia]).
  assert (IL : (index < Z.of_nat (length k))%Z). { destruct (Z.eqb_spec index (-1)); [lia|]. assert (X : nth_error k (Z.to_nat index) <> None) by congruence. apply nth_error_Some in X. lia. }
  set (ix := if (index =? -1)%Z then u32 (N.of_nat (length k) + two32 - 1) else as_u32 index).
  assert (IX : N.to_nat ix = if (index =? -1)%Z then length k - 1 else Z.to_nat index).
  { unfold ix. destruct (Z.eqb_spec index (-1)).
    - unfold u32. replace (N.of_nat (length k) + two32 - 1)%N with (N.of_nat (length k - 1) + 1 * two32)%N by (unfold two32; lia).
      rewrite N.mod_add by (unfold two32; lia). rewrite N.mod_small; [lia|unfold two32; lia].
    - rewrite as_u32_small by lia. lia. }
  destruct (item_at s ch e k ix W R RW) as (s1 & E1 & A1). { unfold two32. destruct (index =? -1)%Z; lia. }
  assert (NN : nth_error k (N.to_nat ix) = Some x) by (rewrite IX; destruct (index =? -1)%Z; auto). rewrite NN in E1, A1.
  exists s1. split; auto. unfold delete_tagged. step (items_length_ok s ch e k W R RW). rewrite as_i32_small by auto.
  assert (Q : (index <? -1)%Z || (Z.of_nat (length k) <=? index)%Z || ((index =? -1)%Z && (N.of_nat (length k) =? 0)%N) = false) by lia. rewrite Q. fold ix. step E1. cbn [deref]. rewrite bind_ret. reflexivity.
Qed.
Lemma row_named_in : forall k index x, row_named k index = Some x -> In x k.
Proof. intros k index x H. unfold row_named in H. destruct (index =? -1)%Z; eapply nth_error_In; eauto. Qed.

Lemma delete_ok : forall s ch e k index x, wf s ch -> roomy s -> items tag (s_heap s) e k -> (-1 <= index)%Z -> row_named k index = Some x ->
  parent_of (s_heap s) x = Some e -> ~ read_only (s_heap s) e ->
  exists s' k', delete_tagged tag e index s = Ok tt s' /\ (exists ch', wf s' ch') /\ taken s x s' /\ lists true tag (s_heap s') e k' /\ picks (fun y => ~ anc (s_heap s) x y) k k'.
Proof.
  intros s ch e k index x W R RW I0 NT PX NR. destruct (delete_item s ch e k index x W R RW I0 NT) as (s1 & A1 & E1).
  destruct (item_parent s ch e k x W RW (row_named_in _ _ _ NT)) as (n & H & T & PN & AN & NE). pose proof (items_element _ _ _ RW) as TE.
  unfold parent_of in PX. rewrite H in PX.
  assert (LE : live (s_heap s) e) by (destruct RW as ((ne & HE & _) & _); exists ne; auto).
  destruct (take_ok s s1 ch e x n W R H T A1 LE PX) as (s' & ch' & E2 & W' & TK); auto. { congruence. }
  destruct (taken_lists s ch s' x true tag e k W TK) as (k' & Q1 & Q2); auto. { exists n; auto. } { apply listed_lists. apply RW. } { apply (not_both s ch e x W LE); auto. exists n; auto. }
  exists s', k'. split; [congruence|]. split; [exists ch'; auto|]. auto.
Qed.
Lemma delete_nested : forall s ch e k index x, wf s ch -> roomy s -> items tag (s_heap s) e k -> (-1 <= index)%Z -> row_named k index = Some x ->
  parent_of (s_heap s) x <> Some e -> exists s', delete_tagged tag e index s = Exc NOT_FOUND_ERR s' /\ same_state s s'.
Proof.
  intros s ch e k index x W R RW I0 NT PX. destruct (delete_item s ch e k index x W R RW I0 NT) as (s1 & A1 & E1).
  destruct (item_parent s ch e k x W RW (row_named_in _ _ _ NT)) as (n & H & T & PN & AN & NE). pose proof (items_element _ _ _ RW) as TE.
  unfold parent_of in PX. rewrite H in PX.
  assert (LE : live (s_heap s) e) by (destruct RW as ((ne & HE & _) & _); exists ne; auto).
  rewrite E1. apply (take_refused s s1 ch e x n W R H T A1 LE); auto. congruence.
Qed.
End Tagged.

Lemma row_name : s_TR <> [] /\ s_TR <> [42%N].
Proof. split; discriminate. Qed.
Lemma rows_bound : forall h e k, rows h e k -> (N.of_nat (length k) < 2147483648)%N.
Proof. exact (items_bound s_TR). Qed.
Lemma rows_placed : forall h h' : heap, (forall j n, h j = Some n -> exists n', h' j = Some n' /\ placed n n') -> forall e k, rows h e k -> rows h' e k.
Proof. exact (items_placed s_TR). Qed.
Lemma rows_length_ok : forall s ch e k, wf s ch -> roomy s -> rows (s_heap s) e k -> rows_length e s = Ok (N.of_nat (length k)) s.
Proof. exact (items_length_ok s_TR row_name). Qed.
Lemma row_item : forall s ch e k index, wf s ch -> roomy s -> rows (s_heap s) e k -> (index + 1 < two32)%N ->
  exists s', item_in caseless_isequal s_TR e index s = Ok (nth_error k (N.to_nat index)) s' /\ answered s (nth_error k (N.to_nat index)) s'.
Proof. exact (item_at s_TR row_name). Qed.
Lemma row_parent : forall s ch e k x, wf s ch -> rows (s_heap s) e k -> In x k ->
  exists n, s_heap s x = Some n /\ n_type n = ELEMENT /\ n_parent n <> None /\ anc (s_heap s) e x /\ x <> e.
Proof. exact (item_parent s_TR). Qed.
Lemma rows_element : forall h e k, rows h e k -> type_of h e = Some ELEMENT.
Proof. exact (items_element s_TR). Qed.
Lemma section_delete_out : forall s ch e k index, wf s ch -> roomy s -> rows (s_heap s) e k ->
  (index < -1 \/ Z.of_nat (length k) <= index)%Z \/ k = [] -> section_delete_row e index s = Exc INDEX_SIZE_ERR s.
Proof. exact (delete_out s_TR row_name). Qed.
Lemma section_delete_ok : forall s ch e k index x, wf s ch -> roomy s -> rows (s_heap s) e k -> (-1 <= index)%Z -> row_named k index = Some x ->
  parent_of (s_heap s) x = Some e -> ~ read_only (s_heap s) e ->
  exists s' k', section_delete_row e index s = Ok tt s' /\ (exists ch', wf s' ch') /\ taken s x s' /\ lists true s_TR (s_heap s') e k' /\ picks (fun y => ~ anc (s_heap s) x y) k k'.
Proof. exact (delete_ok s_TR row_name). Qed.
Lemma section_delete_nested : forall s ch e k index x, wf s ch -> roomy s -> rows (s_heap s) e k -> (-1 <= index)%Z -> row_named k index = Some x ->
  parent_of (s_heap s) x <> Some e -> exists s', section_delete_row e index s = Exc NOT_FOUND_ERR s' /\ same_state s s'.
Proof. exact (delete_nested s_TR row_name). Qed.
