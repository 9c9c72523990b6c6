(** Proofs about character data. *)
From Coq Require Import List Arith NArith Bool Lia ZifyBool ZifyNat ZifyN.
From Verif Require Import Base Utf8Model StringModel StringSpec StringProofs HeapModel HeapSpec HeapInv HeapExec HeapTree HeapLoops
  HeapInsert HeapCreate HeapOps HistModel HistProofs TreeSpec TreeProofs WalkModel WalkSpec WalkProofs WalkLists WalkFinds WalkReach
  CharDataModel CharDataSpec.
Import ListNotations.
Local Open Scope dom_scope.

(** ** Lists *)
Lemma skip_skip : forall (A : Type) b a (l : list A), skipn b (skipn a l) = skipn (a + b) l.
Proof.
  intros A b a. induction a; intros l; [reflexivity|]. destruct l; [rewrite !skipn_nil; reflexivity|]. simpl. apply IHa.
Qed.
Lemma in_first : forall (A : Type) (x : A) n l, In x (firstn n l) -> In x l.
Proof. intros A x n l I. rewrite <- (firstn_skipn n l). apply in_or_app; auto. Qed.
Lemma in_skip : forall (A : Type) (x : A) n l, In x (skipn n l) -> In x l.
Proof. intros A x n l I. rewrite <- (firstn_skipn n l). apply in_or_app; auto. Qed.

(** ** Read-only nodes in well-linked heaps *)
Lemma linked_rooted : forall s, linked s -> forall i, live (s_heap s) i -> rooted (s_heap s) i.
Proof.
  intros s L i Li. destruct (ln_ends _ L i Li) as (r & A & T1 & T2). destruct T1 as (nr & Hr). unfold parent_of in T2. rewrite Hr in T2.
  induction A as [|i n p Hi Pi A IH].
  - apply (rooted_top _ _ nr); auto.
  - apply (rooted_step _ _ n p); auto. apply IH; auto. exact (ln_parent _ L _ _ _ Hi Pi).
Qed.

Lemma linked_readonly : forall s, linked s -> forall i, live (s_heap s) i ->
  exists b, readonly i s = Ok b s /\ (b = true <-> read_only (s_heap s) i).
Proof.
  intros s L i Li. pose proof Li as (n & Hn). unfold readonly. step (load_ok _ _ _ Hn).
  destruct (ntype_eqb (n_type n) DOCTYPE || ntype_eqb (n_type n) NOTATION) eqn:E1.
  - apply orb_true_iff in E1. rewrite !ntype_eqb_eq in E1. exists true. split; auto. split; auto.
    intros _. exists n. split; auto. tauto.
  - apply orb_false_iff in E1. rewrite !ntype_eqb_neq in E1. destruct E1 as [E1 E2].
    destruct (ntype_eqb (n_type n) ATTRIBUTE) eqn:E3.
    + apply ntype_eqb_eq in E3. exists (n_ro n). split; auto. split.
      * intros R. exists n. tauto.
      * intros (m & Hm & Q). assert (m = n) by congruence; subst. destruct Q as [Q|[Q|[Q|Q]]]; try congruence; tauto.
    + apply ntype_eqb_neq in E3. pose proof (linked_rooted _ L _ Li) as R. destruct (rooted_achain _ _ R) as [l A].
      assert (B : length l <= s_nxt s).
      { apply (achain_bound (s_heap s) (s_nxt s) i); auto. intros j m H. apply (ln_alloc _ L). exists m; auto. }
      destruct (ro_loop_ok s l i (fuel_of s) A) as (b & E & Q). { unfold fuel_of; lia. }
      exists b. split; auto. rewrite Q. split.
      * intros (a & na & I & Ha & T). exists n. split; auto. right; right; right. split; auto.
        exists a, na. split; auto. apply (achain_anc _ _ _ A) in I. tauto.
      * intros (m & Hm & Z). assert (m = n) by congruence; subst. destruct Z as [Z|[Z|[Z|Z]]]; try congruence; try tauto.
        destruct Z as (_ & a & na & I & Ha & T). exists a, na. split; auto. apply (achain_anc _ _ _ A). split; auto.
Qed.

Lemma type_live : forall h d t, type_of h d = Some t -> live h d.
Proof. intros h d t H. unfold type_of in H. destruct (h d) as [n|] eqn:E; [exists n; auto|discriminate]. Qed.

(** ** Storing *)
Lemma parent_event_ok : forall s d nd p, s_heap s d = Some nd ->
  parent_event (Some d) p s = Ok tt (addlog s (match p with Some q => [EvSubtree q] | None => [] end)).
Proof.
  intros s d nd [p|] H; unfold parent_event.
  - unfold subtree_event. step (deref_ok d s). step (load_ok s d nd H). reflexivity.
  - rewrite addlog_nil. reflexivity.
Qed.

Lemma store_data_ok : forall s i n d v, s_heap s i = Some n -> n_owner n = Some d -> live (s_heap s) d ->
  exists s', store_data i v s = Ok tt s' /\ rewritten s i v s'.
Proof.
  intros s i n d v H O (nd & Hd). unfold store_data. step (load_ok s i n H). rewrite O.
  assert (E1 : data_event (Some d) i (n_value n) v s = Ok tt (addlog s [EvData i (n_value n) v])).
  { unfold data_event. step (deref_ok d s). step (load_ok s d nd Hd). reflexivity. }
  step E1. set (s1 := addlog s _).
  assert (E2 : upd i (set_value v) s1 = Ok tt (withh s1 (hmod (s_heap s1) i (set_value v)))) by exact (upd_ok s1 i n _ H).
  step E2. set (s2 := withh s1 _).
  assert (H2 : s_heap s2 i = Some (set_value v n)). { unfold s2. rewrite withh_heap, hmod_same. change (s_heap s1 i) with (s_heap s i). rewrite H. reflexivity. }
  step (load_ok s2 i _ H2). change (n_parent (set_value v n)) with (n_parent n).
  assert (Hd2 : exists nd2, s_heap s2 d = Some nd2). { unfold s2. rewrite withh_heap. eexists. eapply hmod_get. exact Hd. }
  destruct Hd2 as (nd2 & Hd2). exists (addlog s2 (match n_parent n with Some q => [EvSubtree q] | None => [] end)).
  split; [exact (parent_event_ok s2 d nd2 (n_parent n) Hd2)|].
  exists n. split; auto. split; [|split].
  - intros j. rewrite addlog_heap. unfold s2. rewrite withh_heap. unfold hmod. change (s_heap s1) with (s_heap s).
    destruct (Nat.eqb_spec j i); auto. subst. rewrite H. reflexivity.
  - reflexivity.
  - unfold s2, s1, addlog, withh. cbn [s_log]. rewrite <- app_assoc. reflexivity.
Qed.

(** ** The checks *)
Section Edit.
  Variables (s : st) (i : id) (cs : list N).
  Hypothesis ED : editable s i.
  Hypothesis SY : says (s_heap s) i cs.
  Hypothesis TX : text cs.

  Lemma ro_false : readonly i s = Ok false s.
  Proof.
    destruct ED as (L & (n & H & _) & NR & _). destruct (linked_readonly s L i) as (b & E & B). { exists n; auto. }
    destruct b; auto. exfalso. apply NR. apply B. auto.
  Qed.

  Lemma value_ok : exists n d, s_heap s i = Some n /\ n_owner n = Some d /\ live (s_heap s) d /\
     d_bytes (or_empty (dstring (n_value n))) = encoded cs /\ (n_value n <> None -> n_value n = Some (encoded cs)).
  Proof.
    destruct ED as (L & _ & _ & d & O & Ld). apply type_live in Ld. destruct SY as (n & H & V). exists n, d. split; auto.
    unfold owner_of in O. rewrite H in O. split; auto. split; auto. destruct (n_value n); simpl in *; split; auto; try congruence.
  Qed.

  Lemma length_ok : data_length i s = Ok (N.of_nat (length cs)) s.
  Proof.
    destruct SY as (n & H & V). unfold data_length. step (load_ok s i n H). destruct (n_value n) as [v|].
    - simpl in V. subst v. apply string_length_ok; auto.
    - simpl in V. assert (E : cs = []). { destruct cs as [|c l]; auto. exfalso. unfold encoded in V. simpl in V.
        symmetry in V. apply app_eq_nil in V. destruct V as [V _]. unfold utf8 in V.
        destruct (c <? 128)%N; [discriminate|]. destruct (c <? 2048)%N; [discriminate|]. destruct (c <? 65536)%N; discriminate. }
      rewrite E. reflexivity.
  Qed.

  Definition in_range (offset : N) : Prop := (offset < half)%N /\ (offset <= N.of_nat (length cs))%N.

  Lemma negative_false : forall x, (x < half)%N -> negative x = false.
  Proof. intros x H. unfold negative, half in *. apply N.leb_gt. exact H. Qed.
  Lemma negative_true : forall x, (half <= x)%N -> negative x = true.
  Proof. intros x H. unfold negative, half in *. apply N.leb_le. exact H. Qed.

  Lemma range_end_ok : forall o c, in_range o -> (c < half)%N ->
    range_end o c (N.of_nat (length cs)) = N.min (o + c) (N.of_nat (length cs)).
  Proof.
    intros o c [R1 R2] C. unfold range_end, u32. rewrite N.mod_small by (unfold half in *; lia).
    destruct (N.leb_spec (N.of_nat (length cs)) (o + c)); lia.
  Qed.

  Lemma len_small : (N.of_nat (length cs) < two32)%N.
  Proof.
    destruct TX as [F B]. assert (length cs <= length (encoded cs)); [|lia]. clear. induction cs as [|c l]; simpl; auto.
    rewrite app_length. assert (1 <= length (utf8 c)); [|unfold encoded in *; lia]. unfold utf8.
    destruct (c <? 128)%N; [simpl; lia|]. destruct (c <? 2048)%N; [simpl; lia|]. destruct (c <? 65536)%N; simpl; lia.
  Qed.

  Lemma slice_min : forall o c, in_range o ->
    slice (N.to_nat o) (N.to_nat (N.min (o + c) (N.of_nat (length cs)))) cs = middle_of o c cs.
  Proof.
    intros o c [R1 R2]. unfold slice, middle_of. destruct (N.min_spec (o + c) (N.of_nat (length cs))) as [[Q ->]|[Q ->]].
    - f_equal. lia.
    - rewrite Nat2N.id. rewrite !firstn_all2; auto; rewrite skipn_length; lia.
  Qed.

  Lemma skip_min : forall o c, in_range o ->
    skipn (N.to_nat (N.min (o + c) (N.of_nat (length cs)))) cs = tail_of o c cs.
  Proof.
    intros o c [R1 R2]. unfold tail_of. rewrite skip_skip. destruct (N.min_spec (o + c) (N.of_nat (length cs))) as [[Q ->]|[Q ->]].
    - f_equal. lia.
    - rewrite !skipn_all2; auto; lia.
  Qed.

  Lemma check_true : forall (b : bool) e B (k : unit -> M st B) t, b = true -> bind (check b e) k t = k tt t.
  Proof. intros b e B k t ->. reflexivity. Qed.
  Lemma check_false : forall (b : bool) e B (k : unit -> M st B) t, b = false -> bind (check b e) k t = Exc e t.
  Proof. intros b e B k t ->. reflexivity. Qed.

  Theorem substring_ok : forall o c, in_range o -> (c < half)%N -> substring_data i o c s = Ok (encoded (middle_of o c cs)) s.
  Proof.
    intros o c R C. pose proof R as [R1 R2]. unfold substring_data. rewrite check_true. 2:{ rewrite !negative_false; auto. }
    step length_ok. rewrite check_true by (apply N.leb_le; auto).
    destruct value_ok as (n & d & H & O & Ld & V & _). step (load_ok s i n H). unfold substr_arg. rewrite V, range_end_ok by auto.
    rewrite string_substr_ok; auto.
    - pose proof len_small. destruct (N.leb_spec o (N.min (o + c) (N.of_nat (length cs)))); [|lia].
      destruct (N.leb_spec (N.min (o + c) (N.of_nat (length cs))) (N.of_nat (length cs))); [|lia].
      cbn [andb]. rewrite slice_min by auto. reflexivity.
    - unfold half, two32 in *; lia.
    - pose proof len_small. lia.
  Qed.

  Theorem append_ok : forall src, (exists v, get_data i s = Ok (Some v) s) -> exists s', append_data i (Some (encoded src)) s = Ok tt s' /\
    rewritten s i (Some (encoded (cs ++ src))) s'.
  Proof.
    intros src (v & G). unfold append_data. step ro_false. rewrite check_true by auto.
    destruct value_ok as (n & d & H & O & Ld & V & V'). step (load_ok s i n H).
    unfold get_data in G. rewrite (bind_ok _ _ _ _ _ _ _ _ (load_ok s i n H)) in G. unfold ret in G. inversion G as [G'].
    rewrite V' by congruence. unfold string_concat. rewrite bind_ret. rewrite encoded_app. eapply store_data_ok; eauto.
  Qed.

  Theorem insert_ok : forall o src, in_range o -> exists s', insert_data i o (Some (encoded src)) s = Ok tt s' /\
    rewritten s i (Some (encoded (head_of o cs ++ src ++ tail_of o 0 cs))) s'.
  Proof.
    intros o src R. pose proof R as [R1 R2]. unfold insert_data. step ro_false. rewrite check_true by auto.
    rewrite check_true by (rewrite negative_false; auto). step length_ok. rewrite check_true by (apply N.leb_le; auto).
    destruct value_ok as (n & d & H & O & Ld & V & V'). step (load_ok s i n H). unfold insert_arg. cbn [dstring option_map].
    rewrite V. cbn [d_bytes].
    assert (E : string_insert (encoded cs) (encoded src) o s = Ok (encoded (head_of o cs ++ src ++ tail_of o 0 cs)) s).
    { rewrite string_insert_ok; auto. 2:{ unfold half, two32 in *; lia. }
      destruct (N.leb_spec o (N.of_nat (length cs))); [|lia]. unfold head_of, tail_of. rewrite !encoded_app. reflexivity. }
    step E. eapply store_data_ok; eauto.
  Qed.

  Lemma string_replace_range : forall o c src, in_range o -> (c < half)%N ->
    string_replace (encoded cs) (encoded src) o (range_end o c (N.of_nat (length cs))) s =
    Ok (encoded (head_of o cs ++ src ++ tail_of o c cs)) s.
  Proof.
    intros o c src R C. pose proof R as [R1 R2]. pose proof len_small. rewrite range_end_ok by auto. rewrite string_replace_ok; auto.
    - destruct (N.leb_spec o (N.min (o + c) (N.of_nat (length cs)))); [|lia].
      destruct (N.leb_spec (N.min (o + c) (N.of_nat (length cs))) (N.of_nat (length cs))); [|lia].
      cbn [andb]. rewrite skip_min by auto. unfold head_of. rewrite !encoded_app. reflexivity.
    - unfold half, two32 in *; lia.
    - lia.
  Qed.

  Theorem replace_ok : forall o c src, in_range o -> (c < half)%N -> exists s', replace_data i o c (Some (encoded src)) s = Ok tt s' /\
    rewritten s i (Some (encoded (head_of o cs ++ src ++ tail_of o c cs))) s'.
  Proof.
    intros o c src R C. pose proof R as [R1 R2]. unfold replace_data. step ro_false. rewrite check_true by auto.
    rewrite check_true. 2:{ rewrite !negative_false; auto. } step length_ok. rewrite check_true by (apply N.leb_le; auto).
    destruct value_ok as (n & d & H & O & Ld & V & V'). step (load_ok s i n H). unfold replace_arg. cbn [dstring option_map].
    rewrite V. cbn [d_bytes]. step (string_replace_range o c src R C). eapply store_data_ok; eauto.
  Qed.

  Theorem delete_ok : forall o c, in_range o -> (c < half)%N -> exists s', delete_data i o c s = Ok tt s' /\
    rewritten s i (Some (encoded (head_of o cs ++ tail_of o c cs))) s'.
  Proof.
    intros o c R C. pose proof R as [R1 R2]. unfold delete_data. step ro_false. rewrite check_true by auto.
    rewrite check_true. 2:{ rewrite !negative_false; auto. } step length_ok. rewrite check_true by (apply N.leb_le; auto).
    destruct value_ok as (n & d & H & O & Ld & V & V'). step (load_ok s i n H). rewrite O. step (deref_ok d s).
    destruct Ld as (nd & Hd). step (load_ok s d nd Hd). unfold replace_arg. rewrite V. change (d_bytes empty_string) with (encoded []).
    step (string_replace_range o c [] R C). eapply store_data_ok; eauto. exists nd; auto.
  Qed.

  Theorem set_ok : forall v, exists s', set_data i v s = Ok tt s' /\ rewritten s i v s'.
  Proof.
    intros v. unfold set_data. step ro_false. rewrite check_true by auto.
    destruct value_ok as (n & d & H & O & Ld & V & V'). eapply store_data_ok; eauto.
  Qed.

  (** Offsets out of range. *)
  Theorem out_of_range : forall o c v, (half <= o)%N \/ (N.of_nat (length cs) < o)%N ->
    substring_data i o c s = Exc INDEX_SIZE_ERR s /\ insert_data i o v s = Exc INDEX_SIZE_ERR s /\
    delete_data i o c s = Exc INDEX_SIZE_ERR s /\ replace_data i o c v s = Exc INDEX_SIZE_ERR s.
  Proof.
    intros o c v B. unfold substring_data, insert_data, delete_data, replace_data.
    rewrite !(bind_ok _ _ _ _ _ _ _ _ ro_false). rewrite !(check_true (negb false)) by auto.
    destruct (N.lt_ge_cases o half) as [Q|Q].
    - rewrite (negative_false o Q). cbn [negb orb].
      assert (F : (o <=? N.of_nat (length cs))%N = false) by (apply N.leb_gt; destruct B; lia).
      destruct (negative c); cbn [negb].
      + rewrite !(check_false false) by auto. rewrite !(check_true true) by auto. rewrite !(bind_ok _ _ _ _ _ _ _ _ length_ok).
        rewrite !(check_false _ _ _ _ _ F). auto.
      + rewrite !(check_true true) by auto. rewrite !(bind_ok _ _ _ _ _ _ _ _ length_ok). rewrite !(check_false _ _ _ _ _ F). auto.
    - rewrite (negative_true o Q). cbn [negb orb]. rewrite !(check_false false) by auto. auto.
  Qed.

  Theorem negative_count : forall o c v, (half <= c)%N ->
    substring_data i o c s = Exc INDEX_SIZE_ERR s /\ delete_data i o c s = Exc INDEX_SIZE_ERR s /\ replace_data i o c v s = Exc INDEX_SIZE_ERR s.
  Proof.
    intros o c v B. unfold substring_data, delete_data, replace_data.
    rewrite !(bind_ok _ _ _ _ _ _ _ _ ro_false). rewrite !(check_true (negb false)) by auto.
    rewrite (negative_true c B), orb_true_r. cbn [negb]. rewrite !(check_false false) by auto. auto.
  Qed.
End Edit.

(** Read-only nodes. *)
Theorem read_only_rejects : forall s i, linked s -> live (s_heap s) i -> read_only (s_heap s) i -> forall o c v,
  set_data i v s = Exc NO_MODIFICATION_ALLOWED_ERR s /\ append_data i v s = Exc NO_MODIFICATION_ALLOWED_ERR s /\
  insert_data i o v s = Exc NO_MODIFICATION_ALLOWED_ERR s /\ delete_data i o c s = Exc NO_MODIFICATION_ALLOWED_ERR s /\
  replace_data i o c v s = Exc NO_MODIFICATION_ALLOWED_ERR s /\ split_text i o s = Exc NO_MODIFICATION_ALLOWED_ERR s.
Proof.
  intros s i L Li R o c v. destruct (linked_readonly s L i Li) as (b & E & B). apply B in R. subst b.
  unfold set_data, append_data, insert_data, delete_data, replace_data, split_text. rewrite !(bind_ok _ _ _ _ _ _ _ _ E).
  repeat split.
Qed.

(** ** Shape is kept *)
Lemma rewritten_get : forall s i v s', rewritten s i v s' -> forall j n', s_heap s' j = Some n' ->
  exists n, s_heap s j = Some n /\ n' = (if Nat.eqb j i then set_value v n else n).
Proof.
  intros s i v s' (n & H & K & _) j n' H'. rewrite K in H'. destruct (Nat.eqb_spec j i).
  - subst. inversion H'; subst. exists n; auto.
  - exists n'; auto.
Qed.
Lemma rewritten_put : forall s i v s', rewritten s i v s' -> forall j n, s_heap s j = Some n ->
  s_heap s' j = Some (if Nat.eqb j i then set_value v n else n).
Proof.
  intros s i v s' (n & H & K & _) j m H'. rewrite K. destruct (Nat.eqb_spec j i); auto. subst. congruence.
Qed.

Ltac put RW := let P := fresh in pose proof (rewritten_put _ _ _ _ RW) as P.

Lemma set_value_shape : forall (b : bool) v n, n_type (if b then set_value v n else n) = n_type n /\
  n_parent (if b then set_value v n else n) = n_parent n /\ n_first (if b then set_value v n else n) = n_first n /\
  n_last (if b then set_value v n else n) = n_last n /\ n_prev (if b then set_value v n else n) = n_prev n /\
  n_next (if b then set_value v n else n) = n_next n /\ n_attrs (if b then set_value v n else n) = n_attrs n /\
  n_owner (if b then set_value v n else n) = n_owner n /\ n_ref (if b then set_value v n else n) = n_ref n.
Proof. intros [] v n; repeat split. Qed.

Section Shape.
  Variables (s : st) (i : id) (v : option bytes) (s' : st).
  Hypothesis RW : rewritten s i v s'.
  Let P := rewritten_put _ _ _ _ RW.
  Let G := rewritten_get _ _ _ _ RW.

  Lemma rw_live : forall j, live (s_heap s') j <-> live (s_heap s) j.
  Proof.
    intros j. split; intros (n & H).
    - destruct (G _ _ H) as (m & A & _). exists m; auto.
    - eexists. apply P; eauto.
  Qed.
  Lemma rw_fwd : forall o l, fwd (s_heap s) o l -> fwd (s_heap s') o l.
  Proof.
    intros o l F. induction F; [constructor|]. econstructor; [apply P; eauto|].
    destruct (set_value_shape (Nat.eqb i0 i) v n) as (_ & _ & _ & _ & _ & -> & _). auto.
  Qed.
  Lemma rw_bwd : forall o l, bwd (s_heap s) o l -> bwd (s_heap s') o l.
  Proof.
    intros o l F. induction F; [constructor|]. econstructor; [apply P; eauto|].
    destruct (set_value_shape (Nat.eqb i0 i) v n) as (_ & _ & _ & _ & -> & _). auto.
  Qed.
  Lemma rw_anc : forall a j, anc (s_heap s) a j -> anc (s_heap s') a j.
  Proof.
    intros a j A. induction A; [constructor|]. econstructor; [apply P; eauto| |eauto].
    destruct (set_value_shape (Nat.eqb i0 i) v n) as (_ & -> & _). auto.
  Qed.
  Lemma rw_anc_back : forall a j, anc (s_heap s') a j -> anc (s_heap s) a j.
  Proof.
    intros a j A. induction A; [constructor|]. destruct (G _ _ H) as (m & B & ->). econstructor; eauto.
    destruct (set_value_shape (Nat.eqb i0 i) v m) as (_ & Q & _). congruence.
  Qed.
  Lemma rw_type : forall j, type_of (s_heap s') j = type_of (s_heap s) j.
  Proof.
    intros j. unfold type_of. destruct (s_heap s j) as [n|] eqn:H.
    - rewrite (P _ _ H). simpl. destruct (set_value_shape (Nat.eqb j i) v n) as (-> & _). auto.
    - destruct (s_heap s' j) as [n'|] eqn:H'; auto. destruct (G _ _ H') as (m & B & _). congruence.
  Qed.
  Lemma rw_read_only : forall j, read_only (s_heap s') j <-> read_only (s_heap s) j.
  Proof.
    intros j. split; intros (n & H & Q).
    - destruct (G _ _ H) as (m & B & ->). exists m. split; auto.
      destruct (set_value_shape (Nat.eqb j i) v m) as (E & _). rewrite E in Q.
      assert (ER : n_ro (if Nat.eqb j i then set_value v m else m) = n_ro m) by (destruct (Nat.eqb j i); reflexivity). rewrite ER in Q.
      destruct Q as [Q|[Q|[Q|(Q1 & a & na & A & Ha & T)]]]; auto. right; right; right. split; auto.
      destruct (G _ _ Ha) as (ma & B' & ->). exists a, ma. split; [apply rw_anc_back; auto|]. split; auto.
      destruct (set_value_shape (Nat.eqb a i) v ma) as (E' & _). rewrite E' in T. auto.
    - eexists. split; [apply P; eauto|].
      destruct (set_value_shape (Nat.eqb j i) v n) as (E & _). rewrite E.
      assert (ER : n_ro (if Nat.eqb j i then set_value v n else n) = n_ro n) by (destruct (Nat.eqb j i); reflexivity). rewrite ER.
      destruct Q as [Q|[Q|[Q|(Q1 & a & na & A & Ha & T)]]]; auto. right; right; right. split; auto.
      exists a. eexists. split; [apply rw_anc; eauto|]. split; [apply P; eauto|].
      destruct (set_value_shape (Nat.eqb a i) v na) as (E' & _). rewrite E'. auto.
  Qed.

  Lemma rw_linked : linked s -> linked s'.
  Proof.
    intros L. assert (NX : s_nxt s' = s_nxt s) by (pose proof RW as (m & _ & _ & Q & _); auto). constructor.
    - intros j Lj. rewrite NX. apply (ln_alloc _ L). apply rw_live; auto.
    - intros p Lp. apply rw_live in Lp. destruct (ln_lists _ L p Lp) as (l & n & A & F & B & ND & M). exists l.
      eexists. split; [apply P; eauto|]. destruct (set_value_shape (Nat.eqb p i) v n) as (_ & _ & -> & -> & _).
      split; [apply rw_fwd; auto|]. split; [apply rw_bwd; auto|]. split; auto. intros c. rewrite M. split; intros (nc & C1 & C2 & C3).
      + eexists. split; [apply P; eauto|]. destruct (set_value_shape (Nat.eqb c i) v nc) as (-> & -> & _). auto.
      + destruct (G _ _ C1) as (m & B' & ->). exists m. destruct (set_value_shape (Nat.eqb c i) v m) as (E1 & E2 & _). rewrite E1 in C3. rewrite E2 in C2. auto.
    - intros j n p H Q. destruct (G _ _ H) as (m & B & ->). destruct (set_value_shape (Nat.eqb j i) v m) as (_ & E & _). rewrite E in Q.
      apply rw_live. eapply (ln_parent _ L); eauto.
    - intros j Lj. apply rw_live in Lj. destruct (ln_ends _ L j Lj) as (r & A & T1 & T2). exists r. split; [apply rw_anc; auto|].
      split; [apply rw_live; auto|]. unfold parent_of in *. destruct T1 as (nr & Hr). rewrite Hr in T2. rewrite (P _ _ Hr).
      destruct (set_value_shape (Nat.eqb r i) v nr) as (_ & E & _). congruence.
    - intros j n p np H Q Hp NA. destruct (G _ _ H) as (m & B & ->). destruct (G _ _ Hp) as (mp & Bp & ->).
      destruct (set_value_shape (Nat.eqb j i) v m) as (E1 & E2 & _). destruct (set_value_shape (Nat.eqb p i) v mp) as (E3 & _).
      rewrite E1 in *. rewrite E2 in *. rewrite E3. eapply (ln_nests _ L); eauto.
    - intros j n a H I. destruct (G _ _ H) as (m & B & ->). rewrite rw_type. destruct (set_value_shape (Nat.eqb j i) v m) as (_ & _ & _ & _ & _ & _ & E & _).
      rewrite E in I. eapply (ln_attrs _ L); eauto.
    - intros j n H T. destruct (G _ _ H) as (m & B & ->). destruct (set_value_shape (Nat.eqb j i) v m) as (E1 & _ & _ & _ & _ & _ & _ & E8 & _).
      rewrite E1 in T. rewrite E8. eapply (ln_owner _ L); eauto.
    - intros j n d H T O. destruct (G _ _ H) as (m & B & ->). destruct (set_value_shape (Nat.eqb j i) v m) as (E1 & _ & _ & _ & _ & _ & _ & E8 & _).
      rewrite E1 in T. rewrite E8 in O. apply rw_live. eapply (ln_element _ L); eauto.
  Qed.

  Lemma rw_editable : editable s i -> editable s' i.
  Proof.
    intros (L & (n & H & T) & NR & d & O & Ld). split; [apply rw_linked; auto|]. split; [|split].
    - eexists. split; [apply P; eauto|]. destruct (set_value_shape (Nat.eqb i i) v n) as (-> & _). auto.
    - rewrite rw_read_only. auto.
    - exists d. split; [|rewrite rw_type; auto]. unfold owner_of in *. rewrite H in O. rewrite (P _ _ H).
      destruct (set_value_shape (Nat.eqb i i) v n) as (_ & _ & _ & _ & _ & _ & _ & -> & _). auto.
  Qed.
End Shape.

Lemma rewritten_says : forall s i cs s', rewritten s i (Some (encoded cs)) s' -> says (s_heap s') i cs.
Proof.
  intros s i cs s' (n & H & K & _). exists (set_value (Some (encoded cs)) n). rewrite K, Nat.eqb_refl. auto.
Qed.

(** What careful clients hold can be edited. *)
Theorem reach_editable : forall k s g, reach k s g -> short k -> forall i, holds g i -> data_node (s_heap s) i ->
  ~ read_only (s_heap s) i -> editable s i.
Proof.
  intros k s g R SH i Hi D NR. split; [eapply reach_linked; eauto|]. split; auto. split; auto.
  destruct (reach_good _ _ _ R SH) as [[ch (WL & WT & WO & WR)] AG]. destruct D as (n & H & T).
  unfold owner_of. rewrite H. destruct (n_owner n) as [d|] eqn:O.
  - exists d. split; auto. destruct (wo_owner _ _ WO _ _ _ H O) as [(nd & A & A')|[[A _] _]]; [unfold type_of; rewrite A; simpl; congruence|].
    destruct T as [T|[T|T]]; congruence.
  - destruct (wo_noowner _ _ WO _ _ H O). destruct T as [T|[T|T]]; congruence.
Qed.

(** ** Laws between calls *)
Lemma cut_back : forall o (src cs : list N), N.to_nat o <= length cs -> forall c, c = N.of_nat (length src) ->
  head_of o (head_of o cs ++ src ++ tail_of o 0 cs) ++ tail_of o c (head_of o cs ++ src ++ tail_of o 0 cs) = cs.
Proof.
  intros o src cs R c E. unfold head_of, tail_of. rewrite E, Nat2N.id. cbn [N.to_nat skipn].
  assert (LH : length (firstn (N.to_nat o) cs) = N.to_nat o) by (rewrite firstn_length; lia).
  rewrite <- LH at 1. rewrite firstn_app, Nat.sub_diag, firstn_O, app_nil_r, firstn_all.
  rewrite <- LH at 2. rewrite skipn_app, Nat.sub_diag, skipn_O, skipn_all. cbn [app].
  rewrite skipn_app, Nat.sub_diag, skipn_O, skipn_all. cbn [app]. apply firstn_skipn.
Qed.

Theorem delete_undoes_insert : forall s i cs o src, editable s i -> says (s_heap s) i cs -> text cs ->
  text (head_of o cs ++ src ++ tail_of o 0 cs) -> (o < half)%N -> (o <= N.of_nat (length cs))%N -> (N.of_nat (length src) < half)%N ->
  exists s1 s2, insert_data i o (Some (encoded src)) s = Ok tt s1 /\
    delete_data i o (N.of_nat (length src)) s1 = Ok tt s2 /\ says (s_heap s2) i cs.
Proof.
  intros s i cs o src ED SY TX TX' R1 R2 RS. destruct (insert_ok s i cs ED SY TX o src) as (s1 & E1 & RW1). { split; auto. }
  exists s1. pose proof (rewritten_says _ _ _ _ RW1) as SY1.
  destruct (delete_ok s1 i _ (rw_editable _ _ _ _ RW1 ED) SY1 TX' o (N.of_nat (length src))) as (s2 & E2 & RW2); auto.
  { split; auto. unfold head_of, tail_of. rewrite !app_length, firstn_length, !skipn_length. lia. }
  exists s2. split; auto. split; auto. rewrite cut_back in RW2 by (auto; lia). eapply rewritten_says; eauto.
Qed.

Theorem replace_is_delete_insert : forall s i cs o c src, editable s i -> says (s_heap s) i cs -> text cs ->
  (o < half)%N -> (o <= N.of_nat (length cs))%N -> (c < half)%N ->
  exists s1 s2 s3 r, delete_data i o c s = Ok tt s1 /\ insert_data i o (Some (encoded src)) s1 = Ok tt s2 /\
    replace_data i o c (Some (encoded src)) s = Ok tt s3 /\ says (s_heap s2) i r /\ says (s_heap s3) i r.
Proof.
  intros s i cs o c src ED SY TX R1 R2 C. destruct (delete_ok s i cs ED SY TX o c) as (s1 & E1 & RW1); auto. { split; auto. }
  pose proof (rewritten_says _ _ _ _ RW1) as SY1.
  assert (TX1 : text (head_of o cs ++ tail_of o c cs)).
  { destruct TX as [F B]. split.
    - apply Forall_app. split; apply Forall_forall; intros x I; rewrite Forall_forall in F; apply F; unfold head_of, tail_of in I.
      + eapply in_first; eauto.
      + rewrite skip_skip in I. eapply in_skip; eauto.
    - assert (LE : length (encoded (head_of o cs ++ tail_of o c cs)) <= length (encoded cs)); [|lia].
      rewrite encoded_app, app_length. unfold head_of, tail_of.
      rewrite <- (firstn_skipn (N.to_nat o) cs) at 3. rewrite encoded_app, app_length.
      rewrite <- (firstn_skipn (N.to_nat c) (skipn (N.to_nat o) cs)) at 2. rewrite encoded_app, app_length. lia. }
  destruct (insert_ok s1 i _ (rw_editable _ _ _ _ RW1 ED) SY1 TX1 o src) as (s2 & E2 & RW2).
  { split; auto. unfold head_of, tail_of. rewrite app_length, firstn_length, !skipn_length. lia. }
  destruct (replace_ok s i cs ED SY TX o c src) as (s3 & E3 & RW3); auto. { split; auto. }
  exists s1, s2, s3, (head_of o cs ++ src ++ tail_of o c cs). split; auto. split; auto. split; auto. split; [|eapply rewritten_says; eauto].
  apply rewritten_says in RW2.
  replace (head_of o cs ++ src ++ tail_of o c cs) with
    (head_of o (head_of o cs ++ tail_of o c cs) ++ src ++ tail_of o 0 (head_of o cs ++ tail_of o c cs)); auto.
  assert (LH : length (head_of o cs) = N.to_nat o) by (unfold head_of; rewrite firstn_length; lia).
  unfold head_of at 1. rewrite <- LH at 1. rewrite firstn_app, Nat.sub_diag, firstn_O, app_nil_r, firstn_all.
  f_equal. f_equal. unfold tail_of at 1. cbn [N.to_nat skipn]. rewrite <- LH at 1. rewrite skipn_app, Nat.sub_diag, skipn_O, skipn_all. reflexivity.
Qed.

(** ** A fresh node in a well-linked heap *)
Section Fresh.
  Variables (s : st) (h' : heap) (n0 : node) (d : id) (lg : list event).
  Hypothesis L : linked s.
  Hypothesis GR : grown (s_heap s) h' (s_nxt s) n0 (Some d).
  Hypothesis BA : bare n0.
  Hypothesis OW : n_owner n0 = Some d.
  Let s' := mkSt h' (S (s_nxt s)) lg.

  Lemma fresh_put : forall j n, s_heap s j = Some n -> exists n', h' j = Some n' /\ j <> s_nxt s /\ n' = set_pend (n_pend n') n.
  Proof.
    intros j n H. destruct (gr_fwd _ _ _ _ _ GR _ _ H) as (NE & n' & A & B & _). exists n'. auto.
  Qed.
  Lemma fresh_get : forall j n', h' j = Some n' -> j = s_nxt s /\ n' = n0 \/ j <> s_nxt s /\ exists n, s_heap s j = Some n /\ n' = set_pend (n_pend n') n.
  Proof.
    intros j n' H. destruct (gr_bwd _ _ _ _ _ GR _ _ H) as [Q|(NE & n & A & B & _)]; auto. right. split; auto. exists n. auto.
  Qed.
  Lemma pend_shape : forall n' n, n' = set_pend (n_pend n') n -> n_type n' = n_type n /\ n_parent n' = n_parent n /\ n_first n' = n_first n /\
    n_last n' = n_last n /\ n_prev n' = n_prev n /\ n_next n' = n_next n /\ n_attrs n' = n_attrs n /\ n_owner n' = n_owner n /\
    n_value n' = n_value n /\ n_ro n' = n_ro n.
  Proof. intros n' n ->. repeat split. Qed.

  Lemma fresh_fwd : forall o l, fwd (s_heap s) o l -> fwd h' o l.
  Proof.
    intros o l F. induction F; [constructor|]. destruct (fresh_put _ _ H) as (n' & A & _ & E). econstructor; eauto.
    destruct (pend_shape _ _ E) as (_ & _ & _ & _ & _ & -> & _). auto.
  Qed.
  Lemma fresh_bwd : forall o l, bwd (s_heap s) o l -> bwd h' o l.
  Proof.
    intros o l F. induction F; [constructor|]. destruct (fresh_put _ _ H) as (n' & A & _ & E). econstructor; eauto.
    destruct (pend_shape _ _ E) as (_ & _ & _ & _ & -> & _). auto.
  Qed.
  Lemma fresh_anc : forall a j, anc (s_heap s) a j -> anc h' a j.
  Proof.
    intros a j A. induction A; [constructor|]. destruct (fresh_put _ _ H) as (n' & B & _ & E). econstructor; eauto.
    destruct (pend_shape _ _ E) as (_ & -> & _). auto.
  Qed.
  Lemma fresh_anc_back : forall a j, anc h' a j -> j <> s_nxt s -> anc (s_heap s) a j.
  Proof.
    intros a j A. induction A; intros NE; [constructor|]. destruct (fresh_get _ _ H) as [[Q _]|(_ & m & B & E)]; [contradiction|].
    destruct (pend_shape _ _ E) as (_ & E2 & _). rewrite E2 in H0. econstructor; eauto. apply IHA.
    intros ->. destruct (ln_parent _ L _ _ _ B H0) as (np & X). rewrite (gr_fresh _ _ _ _ _ GR) in X. discriminate.
  Qed.
  Lemma fresh_live : forall j, live (s_heap s) j -> live h' j.
  Proof. intros j (n & H). destruct (fresh_put _ _ H) as (n' & A & _). exists n'; auto. Qed.
  Lemma fresh_type : forall j, live (s_heap s) j -> type_of h' j = type_of (s_heap s) j.
  Proof.
    intros j (n & H). destruct (fresh_put _ _ H) as (n' & A & _ & E). unfold type_of. rewrite A, H. simpl.
    destruct (pend_shape _ _ E) as (-> & _). auto.
  Qed.
  Lemma fresh_read_only : forall j, live (s_heap s) j -> read_only h' j -> read_only (s_heap s) j.
  Proof.
    intros j (n & H) (n' & H' & Q). destruct (fresh_put _ _ H) as (n1 & A & NE & E). assert (n1 = n') by congruence; subst n1.
    exists n. split; auto. destruct (pend_shape _ _ E) as (E1 & E2 & _ & _ & _ & _ & _ & _ & _ & E9). rewrite E1, E9 in Q.
    destruct Q as [Q|[Q|[Q|(Q1 & a & na & B & Ha & T)]]]; auto. right; right; right. split; auto.
    pose proof (fresh_anc_back _ _ B NE) as AB.
    assert (LA : live (s_heap s) a).
    { clear - AB H L. revert n H. induction AB as [|x nx px Hx Px _ IH]; intros n H; [exists n; auto|].
      destruct (ln_parent _ L _ _ _ Hx Px) as (np & Hp). eauto. }
    destruct LA as (ma & Hma). exists a, ma. split; auto. split; auto.
    destruct (fresh_put _ _ Hma) as (m1 & C1 & _ & C2). assert (m1 = na) by congruence; subst m1.
    destruct (pend_shape _ _ C2) as (C3 & _). rewrite C3 in T. auto.
  Qed.

  Lemma fresh_linked : linked s'.
  Proof.
    destruct BA as (BP & BF & BL & BV & BN & BT & BQ & BR). constructor; cbn [s_heap s_nxt s'].
    - intros j (n & H). destruct (fresh_get _ _ H) as [[-> _]|(_ & m & A & _)]; [lia|]. assert (j < s_nxt s) by (apply (ln_alloc _ L); exists m; auto). lia.
    - intros p (n & H). destruct (fresh_get _ _ H) as [[-> ->]|(NE & m & A & E)].
      + exists [], n0. split; auto. rewrite BF, BL. split; [constructor|]. split; [constructor|]. split; [constructor|].
        intros c. split; [intros []|]. intros (nc & C1 & C2 & C3). destruct (fresh_get _ _ C1) as [[-> ->]|(_ & mc & D1 & D2)]; [congruence|].
        destruct (pend_shape _ _ D2) as (_ & E2 & _). rewrite E2 in C2. destruct (ln_parent _ L _ _ _ D1 C2) as (np & X).
        rewrite (gr_fresh _ _ _ _ _ GR) in X. discriminate.
      + destruct (ln_lists _ L p) as (l & n1 & A1 & F & B & ND & M). { exists m; auto. } assert (n1 = m) by congruence; subst n1.
        exists l, n. split; auto. destruct (pend_shape _ _ E) as (E1 & E2 & E3 & E4 & _). rewrite E3, E4.
        split; [apply fresh_fwd; auto|]. split; [apply fresh_bwd; auto|]. split; auto.
        intros c. rewrite M. split; intros (nc & C1 & C2 & C3).
        * destruct (fresh_put _ _ C1) as (nc' & D1 & _ & D2). exists nc'. destruct (pend_shape _ _ D2) as (-> & -> & _). auto.
        * destruct (fresh_get _ _ C1) as [[-> ->]|(_ & mc & D1 & D2)]; [congruence|]. exists mc. destruct (pend_shape _ _ D2) as (G1 & G2 & _).
          rewrite G1 in C3. rewrite G2 in C2. auto.
    - intros j n p H Q. destruct (fresh_get _ _ H) as [[-> ->]|(NE & m & A & E)]; [congruence|].
      destruct (pend_shape _ _ E) as (_ & E2 & _). rewrite E2 in Q. apply fresh_live. eapply (ln_parent _ L); eauto.
    - intros j (n & H). destruct (fresh_get _ _ H) as [[-> ->]|(NE & m & A & E)].
      + exists (s_nxt s). split; [constructor|]. split; [exists n0; auto|]. unfold parent_of. rewrite H. auto.
      + destruct (ln_ends _ L j) as (r & AR & T1 & T2). { exists m; auto. } exists r. split; [apply fresh_anc; auto|]. split; [apply fresh_live; auto|].
        destruct T1 as (nr & Hr). unfold parent_of in *. rewrite Hr in T2. destruct (fresh_put _ _ Hr) as (nr' & D1 & _ & D2). rewrite D1.
        destruct (pend_shape _ _ D2) as (_ & -> & _). auto.
    - intros j n p np H Q Hp NA. destruct (fresh_get _ _ H) as [[-> ->]|(NE & m & A & E)]; [congruence|].
      destruct (pend_shape _ _ E) as (E1 & E2 & _). rewrite E1 in *. rewrite E2 in Q.
      destruct (fresh_get _ _ Hp) as [[-> ->]|(NE' & mp & A' & E')].
      { destruct (ln_parent _ L _ _ _ A Q) as (x & X). rewrite (gr_fresh _ _ _ _ _ GR) in X. discriminate. }
      destruct (pend_shape _ _ E') as (-> & _). eapply (ln_nests _ L); eauto.
    - intros j n a H I. destruct (fresh_get _ _ H) as [[-> ->]|(NE & m & A & E)]. { rewrite BT in I. destruct I. }
      destruct (pend_shape _ _ E) as (_ & _ & _ & _ & _ & _ & E7 & _). rewrite E7 in I. pose proof (ln_attrs _ L _ _ _ A I) as T.
      rewrite fresh_type; auto. eapply type_live; eauto.
    - intros j n H T. destruct (fresh_get _ _ H) as [[-> ->]|(NE & m & A & E)]. { exists d; auto. }
      destruct (pend_shape _ _ E) as (E1 & _ & _ & _ & _ & _ & _ & E8 & _). rewrite E1 in T. rewrite E8. eapply (ln_owner _ L); eauto.
    - intros j n k H T O. destruct (fresh_get _ _ H) as [[-> ->]|(NE & m & A & E)].
      + assert (k = d) by congruence; subst. destruct (gr_doc _ _ _ _ _ GR d eq_refl) as (x & X & _). apply fresh_live. exists x; auto.
      + destruct (pend_shape _ _ E) as (E1 & _ & _ & _ & _ & _ & _ & E8 & _). rewrite E1 in T. rewrite E8 in O. apply fresh_live. eapply (ln_element _ L); eauto.
  Qed.
End Fresh.

Lemma create_node_grown : forall s d nd t nm v ns pf, (forall i, live (s_heap s) i -> i < s_nxt s) -> s_heap s d = Some nd -> n_type nd = DOCUMENT ->
  exists h', create_node (Some d) t nm v ns pf s = Ok (s_nxt s) (mkSt h' (S (s_nxt s)) (s_log s)) /\
    grown (s_heap s) h' (s_nxt s) (set_pending true (new_node t nm v ns pf (Some d))) (Some d).
Proof.
  intros s d nd t nm v ns pf AL0 Hd Td.
  assert (F : s_heap s (s_nxt s) = None).
  { destruct (s_heap s (s_nxt s)) as [n|] eqn:E; auto. exfalso. assert (s_nxt s < s_nxt s) by (apply AL0; exists n; auto). lia. }
  assert (NE : d <> s_nxt s) by congruence.
  set (i := s_nxt s) in *. set (n := new_node t nm v ns pf (Some d)).
  set (h1 := hupd (s_heap s) i (Some n)).
  exists (hmod (hmod h1 d (fun n => set_pend (n_pend n ++ [i]) n)) i (set_pending true)).
  assert (H1d : h1 d = Some nd). { unfold h1, hupd. apply Nat.eqb_neq in NE. rewrite NE. auto. }
  assert (H1i : h1 i = Some n). { unfold h1, hupd. rewrite Nat.eqb_refl. auto. }
  assert (G : grown (s_heap s) (hmod (hmod h1 d (fun n => set_pend (n_pend n ++ [i]) n)) i (set_pending true)) i (set_pending true n) (Some d)).
  { constructor; auto.
    - rewrite hmod_same, hmod_other by auto. rewrite H1i. auto.
    - intros k E. inversion E; subst k. exists nd. split; auto. split; auto. rewrite hmod_other by auto. rewrite hmod_same, H1d. auto.
    - intros j J K. rewrite !hmod_other by congruence. unfold h1, hupd. apply Nat.eqb_neq in J. rewrite J. auto. }
  split; [|auto].
  unfold create_node. rewrite bind_assoc. step (load_ok _ _ _ Hd). rewrite bind_ret.
  assert (AL : alloc n s = Ok i (mkSt h1 (S i) (s_log s))) by reflexivity.
  unfold n in AL. step AL. unfold mark_pending. rewrite bind_assoc.
  step (load_ok (mkSt h1 (S i) (s_log s)) i n H1i). change (n_owner n) with (Some d). cbv iota.
  change (assert_ (negb (n_pending n))) with (@ret st unit tt). rewrite bind_assoc, bind_ret.
  unfold pend_append. rewrite bind_assoc.
  step (upd_ok (mkSt h1 (S i) (s_log s)) d nd (fun n => set_pend (n_pend n ++ [i]) n) H1d).
  erewrite bind_ok; [|eapply upd_ok; rewrite withh_heap; rewrite hmod_other by auto; exact H1i]. reflexivity.
Qed.

(** ** splitText *)
Theorem split_ok : forall s i cs o, editable s i -> says (s_heap s) i cs -> text cs -> (N.of_nat (length cs) < half)%N ->
  (o < N.of_nat (length cs))%N ->
  exists r s1 s2, split_text i o s = Ok r s2 /\ ~ live (s_heap s) r /\
    (exists n d, s_heap s i = Some n /\ n_owner n = Some d /\
       s_heap s1 r = Some (set_pending true (new_node TEXT (n_name n) (Some (encoded (skipn (N.to_nat o) cs))) None None (Some d))) /\
       (forall j, j <> r -> j <> d -> s_heap s1 j = s_heap s j) /\
       (forall nd, s_heap s d = Some nd -> s_heap s1 d = Some (set_pend (n_pend nd ++ [r]) nd))) /\
    s_log s1 = s_log s /\ linked s1 /\
    rewritten s1 i (Some (encoded (firstn (N.to_nat o) cs))) s2.
Proof.
  intros s i cs o ED SY TX SH R. pose proof ED as (L & (n & H & T) & NR & d & O & TD).
  assert (LW : (N.of_nat (length cs) - o < half)%N) by lia.
  assert (SB : sub32 (N.of_nat (length cs)) o = (N.of_nat (length cs) - o)%N).
  { unfold sub32, u32, half in *. rewrite (N.mod_small o) by lia.
    replace (N.of_nat (length cs) + 4294967296 - o)%N with ((N.of_nat (length cs) - o) + 1 * 4294967296)%N by lia.
    rewrite N.mod_add by lia. apply N.mod_small. lia. }
  unfold split_text. step (ro_false s i ED). rewrite check_true by auto. step (length_ok s i cs SY TX).
  rewrite check_true by (apply negb_true_iff, N.leb_gt; auto). rewrite SB.
  assert (IR : in_range cs o) by (split; lia).
  step (substring_ok s i cs ED SY TX o (N.of_nat (length cs) - o)%N IR LW).
  assert (MID : middle_of o (N.of_nat (length cs) - o) cs = skipn (N.to_nat o) cs).
  { unfold middle_of. apply firstn_all2. rewrite skipn_length. lia. } rewrite MID.
  step (load_ok s i n H). unfold owner_of in O. rewrite H in O. rewrite O.
  assert (Ld : exists nd, s_heap s d = Some nd /\ n_type nd = DOCUMENT).
  { unfold type_of in TD. destruct (s_heap s d) as [nd|]; [|discriminate]. exists nd. simpl in TD. split; congruence. }
  destruct Ld as (nd & Hd & Td).
  destruct (create_node_grown s d nd TEXT (n_name n) (Some (encoded (skipn (N.to_nat o) cs))) None None (ln_alloc _ L) Hd Td) as (h' & EC & GR).
  step EC. set (s1 := mkSt h' _ _). set (n0 := set_pending true _) in *.
  assert (BA : bare n0) by (repeat split). assert (OW : n_owner n0 = Some d) by reflexivity.
  pose proof (fresh_linked s h' n0 d (s_log s) L GR BA OW) as L1. fold s1 in L1.
  destruct (fresh_put s h' n0 d GR i n H) as (n1 & H1 & NE & E1).
  destruct (pend_shape _ _ E1) as (X1 & X2 & X3 & X4 & X5 & X6 & X7 & X8 & X9 & X10).
  assert (ED1 : editable s1 i).
  { split; auto. split; [exists n1; split; [exact H1|rewrite X1; auto]|]. split.
    - intros Q. apply NR. apply (fresh_read_only s h' n0 d L GR i); auto. exists n; auto.
    - exists d. split; [unfold owner_of; cbn [s1 s_heap]; rewrite H1; congruence|]. cbn [s1 s_heap]. rewrite (fresh_type s h' n0 d GR); auto. exists nd; auto. }
  assert (SY1 : says (s_heap s1) i cs).
  { exists n1. split; auto. rewrite X9. destruct SY as (m & A & B). assert (m = n) by congruence; subst. auto. }
  destruct (delete_ok s1 i cs ED1 SY1 TX o (N.of_nat (length cs) - o)%N IR LW) as (s2 & E2 & RW).
  assert (TL : tail_of o (N.of_nat (length cs) - o) cs = []).
  { unfold tail_of. apply skipn_all2. rewrite skipn_length. lia. } rewrite TL, app_nil_r in RW.
  exists (s_nxt s), s1, s2. split; [|split; [|split; [|split; [|split]]]]; auto.
  - unfold try. unfold bind at 1. rewrite E2. reflexivity.
  - intros (x & X). rewrite (gr_fresh _ _ _ _ _ GR) in X. discriminate.
  - exists n, d. split; auto. split; auto. split; [exact (gr_new _ _ _ _ _ GR)|]. split.
    + intros j J1 J2. apply (gr_other _ _ _ _ _ GR); congruence.
    + intros nd' Hd'. destruct (gr_doc _ _ _ _ _ GR d eq_refl) as (x & A & _ & B). assert (x = nd') by congruence; subst. exact B.
Qed.

Theorem split_range : forall s i cs o, editable s i -> says (s_heap s) i cs -> text cs -> (N.of_nat (length cs) <= o)%N ->
  split_text i o s = Exc INDEX_SIZE_ERR s.
Proof.
  intros s i cs o ED SY TX R. unfold split_text. step (ro_false s i ED). rewrite check_true by auto. step (length_ok s i cs SY TX).
  apply check_false. apply negb_false_iff, N.leb_le. auto.
Qed.
