(** The index of a row. *)
From Coq Require Import List Arith NArith ZArith Bool Lia ZifyBool ZifyNat ZifyN.
From Verif Require Import Base HeapModel HeapSpec HeapInv HeapExec HeapTree HeapFrame HeapOps HeapLoops HistModel HistProofs TreeSpec TreeProofs TreeProofs3
  StringModel WalkModel WalkSpec WalkProofs WalkLists WalkFinds WalkReach ContentProofs ImportProofs HtmlModel HtmlSpec HtmlBase HtmlSelect HtmlTake HtmlRows HtmlTable HtmlInsert HtmlTables HtmlBodies CellModel CellSpec.
Import ListNotations.
Local Open Scope dom_scope.

Lemma is_named_iff : forall (name : bytes) n, name <> [] -> name <> [42%N] -> (element_node n && is_named n name = true <-> has_tag true name n).
Proof. intros name n NE NS. exact (has_tag_iff true name n NE NS). Qed.
Lemma part_named : forall s (name : bytes) i n, name <> [] -> name <> [42%N] -> s_heap s i = Some n -> (part name (s_heap s) i <-> element_node n && is_named n name = true).
Proof.
  intros s name i n NE NS H. rewrite is_named_iff by auto. split; [intros (m & M & T); congruence|]. intros T. exists n. auto.
Qed.
Lemma part_is_named : forall s (name : bytes) i n, name <> [] -> name <> [42%N] -> s_heap s i = Some n -> part name (s_heap s) i -> is_named n name = true.
Proof. intros s name i n NE NS H P. apply (part_named s name i n NE NS H) in P. apply andb_prop in P. tauto. Qed.
Lemma named_part : forall s (name : bytes) i n, name <> [] -> name <> [42%N] -> s_heap s i = Some n -> n_type n = ELEMENT -> (part name (s_heap s) i <-> is_named n name = true).
Proof.
  intros s name i n NE NS H T. rewrite (part_named s name i n NE NS H). unfold element_node. rewrite T. reflexivity.
Qed.

Lemma row_picks : forall s a, exists k, picks (part s_TR (s_heap s)) a k.
Proof.
  intros s a. induction a as [|x a (k & K)]; [exists []; constructor|]. destruct row_name as [N1 N2].
  assert (DEC : part s_TR (s_heap s) x \/ ~ part s_TR (s_heap s) x).
  { destruct (s_heap s x) as [n|] eqn:H; [|right; intros (n & X & _); congruence]. destruct (element_node n && is_named n s_TR) eqn:E; [left|right; intros X]; rewrite (part_named s s_TR x n N1 N2 H) in *; congruence. }
  destruct DEC as [Y|Y]; [exists (x :: k); apply picks_yes; auto|exists k; apply picks_no; auto].
Qed.

(** ** The position among the siblings *)
Lemma count_rows_ok : forall s row b a c f m z, fwd (s_heap s) c (a ++ row :: b) -> ~ In row a -> picks (part s_TR (s_heap s)) a m -> length a <= f ->
  (N.of_nat (length a) + z < two32)%N -> count_rows f row c z s = Ok (N.of_nat (length m) + z)%N s.
Proof.
  intros s row b a. destruct row_name as [N1 N2]. induction a as [|x a IH]; intros c f m z F NI P LF B; cbn [app] in F; inversion F as [|i n l H F']; subst.
  - inversion P; subst. destruct f; cbn [count_rows]; rewrite oid_refl; reflexivity.
  - assert (LN : length (x :: a) = S (length a)) by reflexivity. rewrite LN in LF, B. clear LN. destruct f as [|f]; [lia|]. cbn [count_rows]. rewrite oid_other by (intros ->; apply NI; left; auto). cbn [deref]. rewrite bind_ret. step (load_ok _ _ _ H).
    assert (NI' : ~ In row a) by (intros I; apply NI; right; auto). inversion P as [|y l k PX P'|y l k PX P']; subst.
    + rewrite (proj1 (part_named s s_TR x n N1 N2 H) PX). assert (U : u32 (z + 1) = (z + 1)%N) by (unfold u32; apply N.mod_small; unfold two32 in *; lia). rewrite U.
      rewrite (IH (n_next n) f k (z + 1)%N F' NI' P'); [|lia|lia]. assert (Q : (N.of_nat (length k) + (z + 1) = N.of_nat (length (x :: k)) + z)%N) by (cbn [length]; lia). rewrite Q. reflexivity.
    + destruct (element_node n && is_named n s_TR) eqn:Q; [exfalso; apply PX; apply (part_named s s_TR x n N1 N2 H); exact Q|]. apply IH; auto; lia.
Qed.

Section Index.
  Variables (s : st) (ch : id -> list id) (p row : id) (a b : list id).
  Hypothesis W : wf s ch.
  Hypothesis C : children (s_heap s) p (a ++ row :: b).
  Hypothesis T : type_of (s_heap s) row = Some ELEMENT.
  Hypothesis SM : (N.of_nat (length a) < 2147483648)%N.

  Lemma index_start : forall m, row_count (s_heap s) a m -> exists n d np, s_heap s row = Some n /\ n_parent n = Some p /\ html_doc row s = Ok d s /\ s_heap s p = Some np /\
    with_fuel (fun f => count_rows f row (n_first np) 0) s = Ok (N.of_nat m) s /\ m <= length a.
  Proof.
    intros m (k & P & ->). pose proof W as (WL & WT & WO & WR). pose proof C as (np & HP & F).
    assert (EC : a ++ row :: b = ch p) by (eapply children_det; [exact C|apply (ch_children _ _ WT); exists np; auto]).
    assert (IN : In row (ch p)) by (rewrite <- EC; apply in_or_app; right; left; auto).
    destruct (wt_child _ _ WT _ _ IN) as (n & np' & H & _ & _ & PA & _). unfold type_of in T. rewrite H in T. cbn in T. injection T as TT.
    destruct (parent_doc _ _ WT WO _ _ H) as (d & nd & OD & HD & TD). { intros (Q & _); congruence. } { congruence. }
    exists n, d, np. split; auto. split; auto. split. { unfold html_doc. step (load_ok _ _ _ H). rewrite OD. step (load_ok _ _ _ HD). reflexivity. } split; auto. split; [|apply (picks_length _ _ _ _ P)].
    unfold with_fuel. rewrite (count_rows_ok s row b a (n_first np) (fuel_of s) k 0%N F).
    - rewrite N.add_0_r. reflexivity.
    - pose proof (wt_nodup _ _ WT p) as ND. rewrite <- EC in ND. apply NoDup_remove_2 in ND. intros I. apply ND. apply in_or_app; auto.
    - exact P.
    - pose proof (ch_length s ch WL WT p) as Q. rewrite <- EC, app_length in Q. unfold fuel_of. lia.
    - unfold two32. lia.
  Qed.

  Lemma section_row_index_ok : forall m, row_count (s_heap s) a m -> section_row_index row s = Ok (Z.of_nat m) s.
  Proof.
    intros m RC. destruct (index_start m RC) as (n & d & np & H & PA & D & HP & E & LM). unfold section_row_index. step (load_ok _ _ _ H). rewrite PA. cbn [deref]. rewrite bind_ret. step D. step (load_ok _ _ _ HP). step E.
    rewrite as_i32_small by lia. reflexivity.
  Qed.
End Index.

(** A row without a parent. *)
Lemma index_detached : forall s row n, s_heap s row = Some n -> n_parent n = None -> section_row_index row s = Bad NullDeref /\ row_index row s = Bad NullDeref.
Proof. intros s row n H P. split; [unfold section_row_index|unfold row_index]; step (load_ok _ _ _ H); rewrite P; reflexivity. Qed.

(** ** The position in the table *)
Lemma is_named_some : forall n (name : bytes), name <> [] -> is_named n name = true -> exists b, n_name n = Some b /\ fold_case true b = fold_case true name.
Proof.
  intros n name NE H. unfold is_named in H. change caseless_isequal with (eq_of true) in H. rewrite eq_of_iff in H. cbn [no_null] in H.
  destruct (n_name n) as [b|]; [exists b; auto|]. exfalso. apply NE. destruct name; auto. discriminate.
Qed.

Lemma count_bodies_ok : forall s ch stop rest, wf s ch -> roomy s -> forall a c f m z, fwd (s_heap s) c (a ++ stop :: rest) -> ~ In stop a -> body_rows (s_heap s) a m ->
  names_elements s_TBODY (s_heap s) a -> length a <= f -> (N.of_nat m + z < two32)%N -> count_bodies f stop c z s = Ok (N.of_nat m + z)%N s.
Proof.
  intros s ch stop rest W R a. destruct body_name as [N1 N2]. induction a as [|x a IH]; intros c f m z F NI BR NE LF B; cbn [app] in F; inversion F as [|i n l H F']; subst.
  - inversion BR; subst. destruct f; cbn [count_bodies]; rewrite Nat.eqb_refl; reflexivity.
  - cbn [length] in LF. destruct f as [|f]; [lia|]. cbn [count_bodies]. assert (NX : Nat.eqb x stop = false) by (apply Nat.eqb_neq; intros ->; apply NI; left; auto). rewrite NX.
    assert (NI' : ~ In stop a) by (intros I; apply NI; right; auto). assert (NE' : names_elements s_TBODY (s_heap s) a) by (intros y; intros; eapply (NE y); eauto; right; auto).
    step (load_ok _ _ _ H). inversion BR as [|y k l m' P RW BR' E1 E2|y l m' NP BR' E1 E2]; subst.
    + rewrite (part_is_named s s_TBODY x n N1 N2 H P). step (rows_length_ok s ch x k W R RW).
      assert (U : u32 (z + N.of_nat (length k)) = (z + N.of_nat (length k))%N) by (unfold u32; apply N.mod_small; unfold two32 in *; lia). rewrite U.
      rewrite (IH (n_next n) f m' (z + N.of_nat (length k))%N F' NI' BR' NE'); [|lia|lia].
      assert (Q : (N.of_nat m' + (z + N.of_nat (length k)) = N.of_nat (length k + m') + z)%N) by lia. rewrite Q. reflexivity.
    + destruct (is_named n s_TBODY) eqn:Q; [|apply IH; auto; lia]. exfalso. destruct (is_named_some _ _ N1 Q) as (b & B1 & B2).
      apply NP. apply (named_part s s_TBODY x n N1 N2 H); auto. apply (NE x n b); auto. left; auto.
Qed.

Lemma table_name : s_TABLE <> [] /\ s_TABLE <> [42%N].
Proof. split; discriminate. Qed.
Lemma foot_name' : s_TFOOT <> [] /\ s_TFOOT <> [42%N].
Proof. split; discriminate. Qed.
(** The names of the sections are different. *)
Lemma not_named : forall n (a b : bytes), a <> [] -> is_named n a = true -> fold_case true a <> fold_case true b -> b <> [] -> is_named n b = false.
Proof.
  intros n a b NA H D NB. destruct (is_named n b) eqn:Q; auto. exfalso. apply D. destruct (is_named_some _ _ NA H) as (x & X1 & X2). destruct (is_named_some _ _ NB Q) as (y & Y1 & Y2). congruence.
Qed.

Section Table.
  Variables (s : st) (ch : id -> list id) (q p row : id) (a b c d : list id).
  Hypothesis W : wf s ch.
  Hypothesis R : roomy s.
  Hypothesis C : children (s_heap s) p (a ++ row :: b).
  Hypothesis T : type_of (s_heap s) row = Some ELEMENT.
  Hypothesis Q : children (s_heap s) q (c ++ p :: d).
  Hypothesis TP : part s_TABLE (s_heap s) q.

  Lemma section_parent : exists np, s_heap s p = Some np /\ n_parent np = Some q.
  Proof.
    pose proof W as (WL & WT & WO & WR). pose proof Q as (nq & HQ & F).
    assert (EC : c ++ p :: d = ch q) by (eapply children_det; [exact Q|apply (ch_children _ _ WT); exists nq; auto]).
    assert (IN : In p (ch q)) by (rewrite <- EC; apply in_or_app; right; left; auto).
    destruct (wt_child _ _ WT _ _ IN) as (np & nq' & H & _ & _ & PA & _). exists np. auto.
  Qed.

  Lemma row_index_head : forall m, row_count (s_heap s) a m -> (N.of_nat (length a) < 2147483648)%N -> part s_THEAD (s_heap s) p -> row_index row s = Ok (Z.of_nat m) s.
  Proof.
    intros m RC SM PH. destruct (index_start s ch p row a b W C T SM m RC) as (n & dd & np & H & PA & D & HP & E & LM). destruct section_parent as (np' & HP' & PQ).
    assert (np' = np) by congruence. subst np'. pose proof TP as (nq & HQ & TQ). destruct table_name as [T1 T2]. destruct head_name as [N1 N2].
    unfold row_index. step (load_ok _ _ _ H). rewrite PA. cbn [deref]. rewrite bind_ret. step D. step (load_ok _ _ _ HP). step E. rewrite PQ. cbn [deref]. rewrite bind_ret. step (load_ok _ _ _ HQ).
    rewrite (part_is_named s s_TABLE q nq T1 T2 HQ TP), (part_is_named s s_THEAD p np N1 N2 HP PH). cbn [andb]. rewrite as_i32_small by lia. reflexivity.
  Qed.

  Lemma row_index_body : forall m mh mb, row_count (s_heap s) a m -> part s_TBODY (s_heap s) p \/ part s_TFOOT (s_heap s) p -> head_rows (s_heap s) (c ++ p :: d) mh ->
    body_rows (s_heap s) c mb -> names_elements s_TBODY (s_heap s) c -> (N.of_nat (length a + mh + mb) < 2147483648)%N ->
    exists s', row_index row s = Ok (Z.of_nat (m + mh + mb)) s' /\ same_state s s'.
  Proof.
    intros m mh mb RC PB (o & FT & HO) BR NE SM. destruct (index_start s ch p row a b W C T) with (m := m) as (n & dd & np & H & PA & D & HP & E & LM); [lia|exact RC|].
    destruct section_parent as (np' & HP' & PQ). assert (np' = np) by congruence. subst np'. pose proof TP as (nq & HQ & TQ). pose proof W as (WL & WT & WO & WR).
    assert (EC : c ++ p :: d = ch q) by (eapply children_det; [exact Q|apply (ch_children _ _ WT); exists nq; auto]). rewrite EC in FT.
    destruct table_name as [T1 T2]. destruct head_name as [N1 N2]. destruct body_name as [B1 B2]. destruct foot_name' as [F1 F2].
    assert (NH : is_named np s_THEAD = false). { destruct PB as [PB|PB]; [eapply (not_named np s_TBODY)|eapply (not_named np s_TFOOT)]; auto; try discriminate; eapply part_is_named; eauto. }
    assert (NB : is_named np s_TBODY || is_named np s_TFOOT = true). { apply orb_true_iff. destruct PB as [PB|PB]; [left|right]; eapply part_is_named; eauto. }
    destruct (table_part_ok s ch s_THEAD q nq o N1 N2 W R HQ (proj1 TQ) FT) as (s1 & E1 & A1).
    assert (HS : exists s2, match o with Some t => node_unref t ;;; len <- rows_length t ;; ret (u32 (N.of_nat m + len)) | None => ret (N.of_nat m) end s1 = Ok (N.of_nat (m + mh)) s2 /\ same_state s s2).
    { destruct o as [t|].
      - destruct HO as (k & RW & ->). assert (IT : In t (ch q)). { clear - FT. remember (Some t) as o. induction FT; try discriminate; [injection Heqo as ->; left; auto|right; auto]. }
        destruct (wt_child _ _ WT _ _ IT) as (nt & _ & Ht & _ & _ & PT & _). destruct (give_back s s1 ch t nt W A1 Ht) as (s2 & E2 & SS). { congruence. } { eauto. }
        exists s2. split; auto. step E2. step (rows_length_ok s2 ch t k (same_wf _ _ _ SS W) (same_roomy _ _ SS R) (same_rows _ _ _ _ SS RW)).
        assert (U : u32 (N.of_nat m + N.of_nat (length k)) = N.of_nat (m + length k)) by (unfold u32, two32; rewrite N.mod_small; lia). rewrite U. reflexivity.
      - subst mh. exists s1. rewrite Nat.add_0_r. split; auto. destruct A1 as (X1 & X2 & X3). split; auto. split; auto. intros j. rewrite X3. destruct (s_heap s j); reflexivity. }
    destruct HS as (s2 & E2 & SS). exists s2. split; auto. assert (XX := SS). destruct XX as (_ & _ & X). assert (HQ2 : s_heap s2 q = Some nq) by (rewrite X; auto).
    pose proof (same_wf _ _ _ SS W) as W2. pose proof W2 as (WL2 & WT2 & _). pose proof (proj1 (same_children _ _ SS _ _) Q) as (nq2 & HQ3 & F). assert (nq2 = nq) by congruence. subst nq2.
    assert (EB : with_fuel (fun f => count_bodies f p (n_first nq) (N.of_nat (m + mh))) s2 = Ok (N.of_nat (m + mh + mb)) s2).
    { unfold with_fuel. rewrite (count_bodies_ok s2 ch p d W2 (same_roomy _ _ SS R) c (n_first nq) (fuel_of s2) mb (N.of_nat (m + mh)) F).
      - assert (Y : (N.of_nat mb + N.of_nat (m + mh) = N.of_nat (m + mh + mb))%N) by lia. rewrite Y. reflexivity.
      - pose proof (wt_nodup _ _ WT q) as ND. rewrite <- EC in ND. apply NoDup_remove_2 in ND. intros I. apply ND. apply in_or_app; auto.
      - eapply same_body_rows; eauto.
      - intros y ny z Y1 Y2. rewrite X in Y2. eapply NE; eauto.
      - pose proof (ch_length s2 ch WL2 WT2 q) as Y. rewrite <- EC, app_length in Y. unfold fuel_of. lia.
      - unfold two32. lia. }
    unfold row_index. step (load_ok _ _ _ H). rewrite PA. cbn [deref]. rewrite bind_ret. step D. step (load_ok _ _ _ HP). step E. rewrite PQ. cbn [deref]. rewrite bind_ret. step (load_ok _ _ _ HQ).
    rewrite NH, NB, (part_is_named s s_TABLE q nq T1 T2 HQ TP). cbn [andb]. step E1. step E2. step (load_ok _ _ _ HQ2). step EB. rewrite as_i32_small by lia. reflexivity.
  Qed.
End Table.

(** Not in a section of a table. *)
Lemma row_index_elsewhere : forall s ch p row a b q np nq, wf s ch -> children (s_heap s) p (a ++ row :: b) -> type_of (s_heap s) row = Some ELEMENT -> (N.of_nat (length a) < 2147483648)%N ->
  s_heap s p = Some np -> n_parent np = Some q -> s_heap s q = Some nq -> n_type nq = ELEMENT -> n_type np = ELEMENT ->
  ~ part s_TABLE (s_heap s) q \/ (~ part s_THEAD (s_heap s) p /\ ~ part s_TBODY (s_heap s) p /\ ~ part s_TFOOT (s_heap s) p) -> row_index row s = Exc HIERARCHY_REQUEST_ERR s.
Proof.
  intros s ch p row a b q np nq W C T SM HP PQ HQ TQ TP' D. destruct table_name as [T1 T2]. destruct head_name as [N1 N2]. destruct body_name as [B1 B2]. destruct foot_name' as [F1 F2].
  destruct (row_picks s a) as (k & K). destruct (index_start s ch p row a b W C T SM (length k)) as (n & dd & np' & H & PA & DD & HP' & E & LM). { exists k; auto. } assert (np' = np) by congruence. subst np'.
  unfold row_index. step (load_ok _ _ _ H). rewrite PA. cbn [deref]. rewrite bind_ret. step DD. step (load_ok _ _ _ HP). step E. rewrite PQ. cbn [deref]. rewrite bind_ret. step (load_ok _ _ _ HQ).
  assert (NN : forall (name : bytes) i ni, name <> [] -> name <> [42%N] -> s_heap s i = Some ni -> n_type ni = ELEMENT -> ~ part name (s_heap s) i -> is_named ni name = false).
  { intros name i ni X1 X2 HI TI NP. destruct (is_named ni name) eqn:Y; auto. exfalso. apply NP. apply (named_part s name i ni X1 X2 HI TI). exact Y. }
  destruct D as [D|(D1 & D2 & D3)].
  - rewrite (NN s_TABLE q nq); auto.
  - rewrite (NN s_THEAD p np), (NN s_TBODY p np), (NN s_TFOOT p np) by auto. cbn [orb]. rewrite !andb_false_r. reflexivity.
Qed.
(** A section in no table. *)
Lemma row_index_orphan : forall s ch p row a b np, wf s ch -> children (s_heap s) p (a ++ row :: b) -> type_of (s_heap s) row = Some ELEMENT -> (N.of_nat (length a) < 2147483648)%N ->
  s_heap s p = Some np -> n_parent np = None -> row_index row s = Bad NullDeref.
Proof.
  intros s ch p row a b np W C T SM HP PQ. destruct (row_picks s a) as (k & K). destruct (index_start s ch p row a b W C T SM (length k)) as (n & dd & np' & H & PA & DD & HP' & E & LM). { exists k; auto. } assert (np' = np) by congruence. subst np'.
  unfold row_index. step (load_ok _ _ _ H). rewrite PA. cbn [deref]. rewrite bind_ret. step DD. step (load_ok _ _ _ HP). step E. rewrite PQ. reflexivity.
Qed.

(** ** Flat sections *)
Lemma order_first : forall h i l, order h i l -> exists r, l = i :: r.
Proof. intros h i l O. inversion O. eexists. reflexivity. Qed.
Lemma orders_length : forall h l ls, Forall2 (order h) l ls -> length l <= length (concat ls).
Proof.
  intros h l ls F. induction F as [|x y l ls O F IH]; [auto|]. destruct (order_first _ _ _ O) as (r & ->). cbn [concat length app]. rewrite app_length. lia.
Qed.
Lemma orders_in : forall h l ls, Forall2 (order h) l ls -> forall x, In x l -> In x (concat ls).
Proof.
  intros h l ls F. induction F as [|x y l ls O F IH]; intros z I; [contradiction|]. destruct (order_first _ _ _ O) as (r & ->). cbn [concat]. apply in_or_app. destruct I as [<-|I]; [left; left; auto|right; auto].
Qed.
Lemma flat_picks : forall (h : heap) (P : id -> Prop) (p : id) l ls, Forall2 (order h) l ls -> forall k, picks P (concat ls) k -> NoDup (concat ls) ->
  (forall x, In x (concat ls) -> P x -> parent_of h x = Some p -> In x l) -> (forall x, In x k -> parent_of h x = Some p) -> picks P l k.
Proof.
  intros h P p l ls F. induction F as [|x y l ls O F IH]; intros k K ND IN FL. { exact K. }
  destruct (order_first _ _ _ O) as (r & ->). cbn [concat] in *. destruct (picks_app _ _ _ _ _ K) as (k1 & k2 & -> & K1 & K2). cbn [app] in ND.
  inversion ND as [|z w NX ND']; subst. 
  assert (NR : forall z, In z r -> P z -> parent_of h z <> Some p).
  { intros z I QZ PZ. destruct (IN z) as [->|IZ]; auto. { right. apply in_or_app. auto. } { apply NX. apply in_or_app. auto. }
    pose proof (orders_in _ _ _ F z IZ) as I2. clear - I I2 ND'. induction r as [|w r IHr]; [contradiction|]. cbn [app] in ND'. inversion ND'; subst. destruct I as [->|I]; [|auto]. apply H1. apply in_or_app. auto. }
  assert (REST : picks P l k2).
  { apply IH; auto. { clear - ND'. induction r as [|w r IHr]; auto. inversion ND'; subst; auto. }
    - intros z I QZ PZ. destruct (IN z) as [->|IZ]; auto. { right. apply in_or_app. auto. } exfalso. apply NX. apply in_or_app. auto.
    - intros z I. apply FL. apply in_or_app. auto. }
  assert (NIL : forall k', picks P r k' -> (forall z, In z k' -> In z (k1 ++ k2)) -> k' = []).
  { intros k' Y SUB. destruct k' as [|z k']; auto. exfalso. assert (I : In z (z :: k')) by (left; auto). destruct (picks_in _ _ _ _ Y z I) as [IR QR]. apply (NR z IR QR). apply FL. apply SUB. exact I. }
  inversion K1 as [|? ? k1' PX Y|? ? k1' PX Y]; subst.
  - rewrite (NIL k1' Y) by (intros z I; apply in_or_app; left; right; auto). cbn [app]. apply picks_yes; auto.
  - rewrite (NIL k1 Y) by (intros z I; apply in_or_app; left; auto). cbn [app]. apply picks_no; auto.
Qed.
Lemma flat_children : forall s e k l, linked s -> rows (s_heap s) e k -> flat (s_heap s) e k -> children (s_heap s) e l ->
  picks (part s_TR (s_heap s)) l k /\ (N.of_nat (length l) < 2147483648)%N.
Proof.
  intros s e k l L (FI & NI & l0 & O & B & P) FL C. pose proof (order_nodup _ L _ _ O) as ND. pose proof (order_members _ _ _ O) as LV. inversion O as [i lc ls C' F]. subst i l0.
  assert (lc = l) by (eapply children_det; eauto). subst lc. inversion ND as [|z w NX ND']; subst. split.
  - assert (P' : picks (part s_TR (s_heap s)) (concat ls) k). { inversion P as [|? ? k' PX Y|? ? k' PX Y]; subst; [exfalso; apply NI; left; auto|exact Y]. }
    eapply flat_picks; eauto. intros x I (n & H & TG & _) PX. destruct (ln_lists _ L e) as (l' & CC). { apply LV. left; auto. } destruct CC as (ne & M1 & M2 & M3 & M4 & M5).
    assert (l' = l) by (eapply children_det; [exists ne; split; [exact M1|exact M2]|exact C]). subst l'. apply M5. exists n. split; auto. unfold parent_of in PX. rewrite H in PX. split; auto. congruence.
  - pose proof (orders_length _ _ _ F). cbn [length] in B. lia.
Qed.
