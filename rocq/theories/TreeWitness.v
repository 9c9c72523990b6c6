(** Concrete histories: non-vacuity of the tree theorems, and the runs behind
    the refuted ones. *)
From Coq Require Import List Arith NArith Bool Lia.
From Verif Require Import Base HeapModel HeapSpec HeapInv HistModel HistProofs TreeSpec TreeProofs TreeProofs3 TreeProofs4.
Import ListNotations.

(** Child lists by computation. *)
Fixpoint walkn (f : nat) (h : heap) (o : option id) : option (list id) :=
  match o with
  | None => Some []
  | Some i =>
      match f, h i with
      | S f, Some n => option_map (cons i) (walkn f h (n_next n))
      | _, _ => None
      end
  end.
Definition kidsn (s : st) (p : id) : option (list id) :=
  match s_heap s p with Some n => walkn 20 (s_heap s) (n_first n) | None => None end.

Lemma walkn_fwd : forall f h o l, walkn f h o = Some l -> fwd h o l.
Proof.
  induction f; intros h [i|] l E; cbn [walkn] in E; try (inversion E; constructor); try discriminate.
  destruct (h i) as [n|] eqn:H; [|discriminate]. destruct (walkn f h (n_next n)) eqn:W; [|discriminate]. simpl in E. inversion E; subst.
  econstructor; eauto.
Qed.
Lemma kidsn_children : forall s p l, kidsn s p = Some l -> children (s_heap s) p l.
Proof.
  intros s p l E. unfold kidsn in E. destruct (s_heap s p) as [n|] eqn:H; [|discriminate]. exists n. split; auto. eapply walkn_fwd; eauto.
Qed.
Lemma kidsn_det : forall s p l l', kidsn s p = Some l -> children (s_heap s) p l' -> l' = l.
Proof. intros s p l l' E C. apply kidsn_children in E. eapply children_det; eauto. Qed.

Definition livesb (s : st) (i : id) : bool := match s_heap s i with Some _ => true | None => false end.
Lemma livesb_ok : forall s i, livesb s i = true <-> live (s_heap s) i.
Proof. intros s i. unfold livesb, live. destruct (s_heap s i); split; intros; eauto; try discriminate. destruct H; discriminate. Qed.

Lemma okb_ok : forall (S A : Type) (r : res S A), match r with Ok _ _ => true | _ => false end = true -> exists a s, r = Ok a s.
Proof. intros S A [a s|e s|b] H; try discriminate. eauto. Qed.
Lemma excb_ok : forall (S A : Type) (r : res S A), match r with Exc _ _ => true | _ => false end = true -> exists e s, r = Exc e s.
Proof. intros S A [a s|e s|b] H; try discriminate. eauto. Qed.
Lemma liveb_some : forall s i, livesb s i = true -> exists n, s_heap s i = Some n.
Proof. intros s i H. apply livesb_ok. auto. Qed.

(** ** A careful client

    Node 0 is a document, 1 its root element; below the root: a text (3), an
    element (2) and, spliced in from the fragment 4, a comment (5) and an
    element (6) with a text child (7).  Node 8 is a parentless element. *)
Definition new (t : ntype) : op := OCreate 0 t None None None None.
Definition demo : list op :=
  [ONewDocument; new ELEMENT; new ELEMENT; new TEXT; new FRAGMENT; new COMMENT; new ELEMENT; new TEXT; new ELEMENT;
   OAppend 0 1; OAppend 1 2; OInsert 1 3 (Some 2); OAppend 6 7; OAppend 4 5; OAppend 4 6; OAppend 1 4].
Definition demo_st : st := fst (played demo).
Definition demo_client : client := snd (played demo).

Lemma demo_reach : reach 16 demo_st demo_client.
Proof. apply (played_reach demo); [vm_compute; reflexivity|unfold short; vm_compute; reflexivity]. Qed.
Lemma demo_short : forall k, (k <= 1000)%nat -> short k.
Proof. intros k H. unfold short. lia. Qed.
Lemma demo_kids : children (s_heap demo_st) 1 [3; 2; 5; 6] /\ children (s_heap demo_st) 0 [1] /\
  children (s_heap demo_st) 6 [7] /\ children (s_heap demo_st) 4 [] /\ children (s_heap demo_st) 8 [].
Proof. repeat split; apply kidsn_children; vm_compute; reflexivity. Qed.
Definition docb (s : st) (g : client) (o : op) : bool :=
  legalb s g o && match o with
                  | OInsert p c _ | OAppend p c | OReplace p c _ => negb (typeb s p DOCUMENT) || negb (typeb s c FRAGMENT)
                  | _ => true
                  end.
Lemma play_docb : forall ops k s g s' g', reach_doc k s g -> short (k + length ops) -> play docb ops s g = Some (s', g') ->
  reach_doc (k + length ops) s' g' /\ play legalb ops s g = Some (s', g').
Proof.
  induction ops as [|o ops]; intros k s g s' g' R SH P; cbn [play length] in *.
  - inversion P; subst. rewrite Nat.add_0_r. auto.
  - destruct (docb s g o) eqn:L; [|discriminate]. unfold docb in L. apply andb_prop in L. destruct L as [L D]. rewrite L. rewrite Nat.add_succ_r in *.
    assert (SK : short k) by (unfold short in *; lia). apply (legalb_ok k) in L; auto using reach_doc_reach.
    assert (NF : no_fragment_into_document s o).
    { destruct o; cbn [no_fragment_into_document]; auto; intros T1 T2; apply typeb_ok in T1, T2; rewrite T1, T2 in D; discriminate. }
    destruct (exec o s) as [v s2|e s2|b] eqn:E; [| |discriminate].
    + apply (IHops (S k) s2 (account s o v g) s' g'); auto. eapply doc_call; eauto.
    + apply (IHops (S k) s2 g s' g'); auto. eapply doc_fail; eauto.
Qed.
Lemma demo_doc : reach_doc 16 demo_st demo_client.
Proof.
  destruct (play docb demo empty_st no_client) as [[s g]|] eqn:E.
  - destruct (play_docb demo 0 empty_st no_client s g) as [A B]; auto. { constructor. } { apply demo_short. simpl. lia. }
    unfold demo_st, demo_client, played. rewrite B. exact A.
  - exfalso. assert (X : match play docb demo empty_st no_client with Some _ => true | None => false end = true) by (vm_compute; reflexivity).
    rewrite E in X. discriminate.
Qed.

(** Calls that the demo client may make next. *)
Lemma demo_legal : forall o, legalb demo_st demo_client o = true -> legal demo_st demo_client o.
Proof. intros o H. apply (legalb_ok 16); auto using demo_reach. apply demo_short. lia. Qed.

(** ** Careless clients *)

(** Replacing a child by an empty fragment. *)
Definition empty_replace : list op :=
  [ONewDocument; new ELEMENT; new ELEMENT; new ELEMENT; new ELEMENT; new FRAGMENT; OAppend 1 2; OAppend 1 3; OAppend 1 4].
Definition er_st : st := fst (played_any empty_replace).
Definition er_st' : st := fst (played_any (empty_replace ++ [OReplace 1 5 3])).

Lemma er_reach : reach_any 9 er_st (snd (played_any empty_replace)).
Proof. apply (played_any_reach empty_replace). vm_compute. reflexivity. Qed.
Lemma er_reach' : reach_any 10 er_st' (snd (played_any (empty_replace ++ [OReplace 1 5 3]))).
Proof. apply (played_any_reach (empty_replace ++ [OReplace 1 5 3])). vm_compute. reflexivity. Qed.

Lemma refuted_lists : exists k s g p, reach_any k s g /\ short k /\ live (s_heap s) p /\ ~ exists l, consistent_children (s_heap s) p l.
Proof.
  exists 10, er_st', (snd (played_any (empty_replace ++ [OReplace 1 5 3]))), 1. split; [exact er_reach'|].
  split; [apply demo_short; lia|]. split; [apply livesb_ok; vm_compute; reflexivity|].
  intros (l & n & A & B & _ & _ & C). assert (K : kidsn er_st' 1 = Some [2; 3]) by (vm_compute; reflexivity).
  assert (E : l = [2; 3]) by (eapply kidsn_det; [exact K|exists n; auto]). 
  destruct (C 3) as [X _]. destruct X as (m & M1 & M2 & _). { rewrite E. simpl; auto. }
  assert (Y : parent_of (s_heap er_st') 3 = None) by (vm_compute; reflexivity). unfold parent_of in Y. rewrite M1 in Y. congruence.
Qed.

Lemma refuted_replace : exists k s g p c old lp s', reach_any k s g /\ short k /\ owning s g (OReplace p c old) /\
  type_of (s_heap s) c = Some FRAGMENT /\ children (s_heap s) c [] /\ children (s_heap s) p lp /\
  replace_child p c old s = Ok old s' /\ ~ children (s_heap s') p (subst_at old [] lp).
Proof.
  exists 9, er_st, (snd (played_any empty_replace)), 1, 5, 3, [2; 3; 4].
  destruct (okb_ok _ _ (replace_child 1 5 3 er_st)) as (v & s' & E); [vm_compute; reflexivity|].
  assert (V : v = 3). { assert (match replace_child 1 5 3 er_st with Ok x _ => x = 3 | _ => False end) by (vm_compute; reflexivity). rewrite E in H. auto. }
  exists s'. split; [exact er_reach|]. split; [apply demo_short; lia|]. split; [apply owningb_ok; vm_compute; reflexivity|].
  split; [vm_compute; reflexivity|]. split; [apply kidsn_children; vm_compute; reflexivity|]. split; [apply kidsn_children; vm_compute; reflexivity|].
  split; [congruence|]. intros C.
  assert (K : kidsn s' 1 = Some [2; 3]).
  { assert (match replace_child 1 5 3 er_st with Ok _ x => kidsn x 1 = Some [2; 3] | _ => False end) by (vm_compute; reflexivity).
    rewrite E in H. auto. }
  pose proof (kidsn_det _ _ _ _ K C) as X. vm_compute in X. discriminate.
Qed.

(** A rejected fragment: text may not enter a document. *)
Definition rejected : list op := [ONewDocument; new FRAGMENT; new TEXT; new ELEMENT; OAppend 1 2].
Lemma refuted_atomic : exists k s g o e s' o2, reach_any k s g /\ short k /\ owning s g o /\ owning s g o2 /\
  exec o s = Exc e s' /\ is_ok (exec o2 s) /\ exec o2 s' = Bad AssertFail.
Proof.
  exists 5, (fst (played_any rejected)), (snd (played_any rejected)), (OAppend 0 1), HIERARCHY_REQUEST_ERR.
  destruct (excb_ok _ _ (exec (OAppend 0 1) (fst (played_any rejected)))) as (e & s' & E); [vm_compute; reflexivity|].
  exists s', (OAppend 3 1). split; [apply (played_any_reach rejected); vm_compute; reflexivity|].
  split; [apply demo_short; lia|]. split; [apply owningb_ok; vm_compute; reflexivity|]. split; [apply owningb_ok; vm_compute; reflexivity|].
  assert (X : match exec (OAppend 0 1) (fst (played_any rejected)) with Exc x y => x = HIERARCHY_REQUEST_ERR /\ exec (OAppend 3 1) y = Bad AssertFail | _ => False end)
    by (vm_compute; split; reflexivity).
  rewrite E in X. destruct X as [-> X]. split; auto. split; auto.
  destruct (okb_ok _ _ (exec (OAppend 3 1) (fst (played_any rejected)))) as (v & t & E2); [vm_compute; reflexivity|].
  exists v, t. auto.
Qed.

(** Two elements through a fragment. *)
Definition two_roots : list op := [ONewDocument; new FRAGMENT; new ELEMENT; new ELEMENT; OAppend 1 2; OAppend 1 3; OAppend 0 1].
Lemma refuted_roots : exists k s g d, reach_any k s g /\ short k /\ type_of (s_heap s) d = Some DOCUMENT /\ ~ at_most_one (s_heap s) d ELEMENT.
Proof.
  exists 7, (fst (played_any two_roots)), (snd (played_any two_roots)), 0.
  split; [apply (played_any_reach two_roots); vm_compute; reflexivity|]. split; [apply demo_short; lia|].
  split; [vm_compute; reflexivity|]. intros A.
  assert (X : 2 = 3); [|discriminate]. apply (A [2; 3] 2 3); [apply kidsn_children; vm_compute; reflexivity| | |vm_compute; reflexivity|vm_compute; reflexivity]; simpl; auto.
Qed.

(** A fragment inserted twice. *)
Definition spent : list op := [ONewDocument; new ELEMENT; new FRAGMENT; OAppend 1 2].
Lemma refuted_assert : exists k s g o, reach_any k s g /\ short k /\ owning s g o /\ exec o s = Bad AssertFail.
Proof.
  exists 4, (fst (played_any spent)), (snd (played_any spent)), (OAppend 1 2).
  split; [apply (played_any_reach spent); vm_compute; reflexivity|]. split; [apply demo_short; lia|].
  split; [apply owningb_ok; vm_compute; reflexivity|vm_compute; reflexivity].
Qed.

(** Two held children of a parent that goes away: then one of them goes too. *)
Definition stranding : list op :=
  [ONewDocument; new ELEMENT; new ELEMENT; new ELEMENT; OAppend 1 2; OAppend 1 3; OUnref 1; OUnref 3; OUnref 3].
Lemma refuted_sibling : exists k s g i n j, reach k s g /\ short k /\ holds g i /\ s_heap s i = Some n /\ n_parent n = None /\
  n_next n = Some j /\ s_heap s j = None /\ owning s g (ONext i) /\ exec (ONext i) s = Bad UseAfterFree.
Proof.
  exists 9, (fst (played stranding)), (snd (played stranding)), 2.
  destruct (liveb_some (fst (played stranding)) 2) as [n E]; [vm_compute; reflexivity|].
  assert (X : match s_heap (fst (played stranding)) 2 with Some n => n_parent n = None /\ n_next n = Some 3 | None => False end)
    by (vm_compute; split; reflexivity). rewrite E in X. destruct X.
  exists n, 3. split; [apply (played_reach stranding); vm_compute; reflexivity|]. split; [apply demo_short; lia|].
  split; [apply heldb_ok; vm_compute; reflexivity|]. repeat (split; auto); try (vm_compute; reflexivity).
  cbn [passes]. repeat constructor; apply heldb_ok; vm_compute; reflexivity.
Qed.

(** A used fragment outlives its document. *)
Definition spent_outlives : list op := [ONewDocument; new ELEMENT; new FRAGMENT; OAppend 1 2; OUnref 0; OUnref 1].
Lemma refuted_owner : exists k s g i n d, reach k s g /\ short k /\ holds g i /\ s_heap s i = Some n /\ n_owner n = Some d /\ s_heap s d = None /\
  owning s g (OOwner i) /\ exec (OOwner i) s = Bad UseAfterFree.
Proof.
  exists 6, (fst (played spent_outlives)), (snd (played spent_outlives)), 2.
  destruct (liveb_some (fst (played spent_outlives)) 2) as [n E]; [vm_compute; reflexivity|].
  assert (X : match s_heap (fst (played spent_outlives)) 2 with Some n => n_owner n = Some 0 | None => False end)
    by (vm_compute; reflexivity). rewrite E in X.
  exists n, 0. split; [apply (played_reach spent_outlives); vm_compute; reflexivity|]. split; [apply demo_short; lia|].
  split; [apply heldb_ok; vm_compute; reflexivity|]. repeat (split; auto); try (vm_compute; reflexivity).
  cbn [passes]. repeat constructor; apply heldb_ok; vm_compute; reflexivity.
Qed.

(** A held text below a document that nobody holds any more: the document stays
    for it, but has lost its name. *)
Definition zombie : list op := [ONewDocument; new ELEMENT; OUnref 0; OOwner 1].
Lemma refuted_zombie : exists k s g d, reach k s g /\ short k /\ holds g d /\ type_of (s_heap s) d = Some DOCUMENT /\ get_node_name d s = Bad AssertFail.
Proof.
  exists 4, (fst (played zombie)), (snd (played zombie)), 0.
  split; [apply (played_reach zombie); vm_compute; reflexivity|]. split; [apply demo_short; lia|].
  split; [apply heldb_ok; vm_compute; reflexivity|]. split; vm_compute; reflexivity.
Qed.

(** Events: what removal and replacement report. *)
Lemma remove_twice : exists k s g p c s', reach k s g /\ short (S k) /\ legal s g (ORemove p c) /\
  remove_child p c s = Ok c s' /\ ~ exists evs, remove_events (s_heap s) p c evs /\ s_log s' = s_log s ++ evs.
Proof.
  exists 16, demo_st, demo_client, 1, 2.
  assert (L : legal demo_st demo_client (ORemove 1 2)) by (apply demo_legal; vm_compute; reflexivity).
  destruct (remove_full 16 demo_st demo_client demo_reach (demo_short 17 ltac:(lia)) 1 2 L) as ([e|] & FF & Q).
  { exfalso. assert (X : match remove_child 1 2 demo_st with Exc _ _ => False | _ => True end) by (vm_compute; exact I). rewrite Q in X. exact X. }
  destruct Q as (s' & E & _ & _ & _ & _ & ds & O & LG). exists s'. split; [apply demo_reach|]. split; [apply demo_short; lia|].
  split; auto. split; auto. intros (evs & RE & LG2). rewrite LG in LG2. apply app_inv_head in LG2.
  destruct RE as [ds' O']. 
  assert (D : ds = []). { inversion O as [i l ls C F EQ]; subst. assert (l = []) by (apply (kidsn_det demo_st 2 [] l); [vm_compute; reflexivity|exact C]). subst l. inversion F; subst. auto. }
  assert (D' : ds' = []). { inversion O' as [i l ls C F EQ]; subst. assert (l = []) by (apply (kidsn_det demo_st 2 [] l); [vm_compute; reflexivity|exact C]). subst l. inversion F; subst. auto. }
  subst. discriminate.
Qed.

Lemma replace_silent : exists k s g p c old s', reach k s g /\ short (S k) /\ legal s g (OReplace p c old) /\ c <> old /\
  replace_child p c old s = Ok old s' /\ s_log s' = s_log s.
Proof.
  exists 16, demo_st, demo_client, 1, 8, 2.
  assert (L : legal demo_st demo_client (OReplace 1 8 2)) by (apply demo_legal; vm_compute; reflexivity).
  destruct (replace_full 16 demo_st demo_client demo_reach (demo_short 17 ltac:(lia)) 1 8 2 L) as ([e|] & FF & Q).
  { exfalso. assert (X : match replace_child 1 8 2 demo_st with Exc _ _ => False | _ => True end) by (vm_compute; exact I). rewrite Q in X. exact X. }
  destruct Q as (s' & E & _ & _ & _ & _ & LG). exists s'. split; [apply demo_reach|]. split; [apply demo_short; lia|].
  split; [exact L|]. split; [discriminate|]. split; [exact E|]. apply LG. vm_compute. reflexivity.
Qed.

(** A comment may replace the root element although it could not be removed. *)
Lemma root_replaced : exists k s g p c old s', reach k s g /\ short (S k) /\ legal s g (OReplace p c old) /\ legal s g (ORemove p old) /\
  type_of (s_heap s) p = Some DOCUMENT /\ type_of (s_heap s) old = Some ELEMENT /\
  remove_child p old s = Exc NOT_SUPPORTED_ERR s /\ replace_child p c old s = Ok old s'.
Proof.
  exists 16, demo_st, demo_client, 0, 5, 1.
  assert (L : legal demo_st demo_client (OReplace 0 5 1)) by (apply demo_legal; vm_compute; reflexivity).
  assert (L2 : legal demo_st demo_client (ORemove 0 1)) by (apply demo_legal; vm_compute; reflexivity).
  destruct (okb_ok _ _ (replace_child 0 5 1 demo_st)) as (v & s' & E); [vm_compute; reflexivity|].
  assert (V : v = 1). { assert (match replace_child 0 5 1 demo_st with Ok x _ => x = 1 | _ => False end) by (vm_compute; reflexivity). rewrite E in H. auto. }
  exists s'. split; [apply demo_reach|]. split; [apply demo_short; lia|]. split; auto. split; auto. split; [vm_compute; reflexivity|]. split; [vm_compute; reflexivity|].
  split; [|congruence].
  destruct (remove_full 16 demo_st demo_client demo_reach (demo_short 17 ltac:(lia)) 0 1 L2) as ([e|] & FF & Q).
  - assert (X : match remove_child 0 1 demo_st with Exc x _ => x = NOT_SUPPORTED_ERR | _ => False end) by (vm_compute; reflexivity). rewrite Q in X. congruence.
  - exfalso. destruct Q as (s2 & Q & _). assert (X : match remove_child 0 1 demo_st with Ok _ _ => False | _ => True end) by (vm_compute; exact I). rewrite Q in X. exact X.
Qed.

(** The root element cannot be moved within its own document. *)
Lemma root_unmovable : exists k s g p c r, reach k s g /\ short (S k) /\ legal s g (OInsert p c r) /\
  parent_of (s_heap s) c = Some p /\ insert_before p c r s = Exc HIERARCHY_REQUEST_ERR s.
Proof.
  exists 16, demo_st, demo_client, 0, 1, None.
  assert (L : legal demo_st demo_client (OInsert 0 1 None)) by (apply demo_legal; vm_compute; reflexivity).
  split; [apply demo_reach|]. split; [apply demo_short; lia|]. split; [exact L|]. split; [vm_compute; reflexivity|].
  destruct (insert_full 16 demo_st demo_client demo_reach (demo_short 17 ltac:(lia)) 0 1 None L) as ([e|] & FF & Q).
  - assert (X : match insert_before 0 1 None demo_st with Exc x _ => x = HIERARCHY_REQUEST_ERR | _ => False end) by (vm_compute; reflexivity). rewrite Q in X. congruence.
  - exfalso. destruct Q as (s2 & Q & _). assert (X : match insert_before 0 1 None demo_st with Ok _ _ => False | _ => True end) by (vm_compute; exact I). rewrite Q in X. exact X.
Qed.
