(** Two documents, by history, and runs of importNode and adoptNode between them. *)
From Coq Require Import List Arith NArith Bool Lia.
From Verif Require Import Base HeapModel HeapSpec HeapInv HistModel HistProofs TreeSpec TreeProofs4 TreeWitness WalkModel WalkSpec
  ContentModel ContentSpec ContentWitness ChildAttrWitness ImportModel ImportSpec ImportProofs.
Import ListNotations.

(** Document 0 with the root element 1, below it the element 2 with the text 3;
    document 4 with the root element 5. *)
Definition two_ops : list op :=
  [ONewDocument; new ELEMENT; new ELEMENT; new TEXT; OAppend 0 1; OAppend 1 2; OAppend 2 3;
   ONewDocument; OCreate 4 ELEMENT None None None None; OAppend 4 5].
Definition two : st := fst (played two_ops).
Definition two_client : client := snd (played two_ops).
Lemma two_reach : reach 10 two two_client.
Proof. apply (played_reach two_ops); [vm_compute; reflexivity|unfold short; vm_compute; reflexivity]. Qed.
Lemma two_short : short 11.
Proof. apply demo_short; lia. Qed.
Lemma two_short' : short 10.
Proof. apply demo_short; lia. Qed.
Lemma two_importable : importable (s_heap two) 2.
Proof.
  intros j n A H. apply plain_kind_ok.
  assert (LT : j < 6). { assert (X : s_nxt two = 6) by (vm_compute; reflexivity). destruct (reach_good _ _ _ two_reach two_short') as [[ch (WL & _)] _].
    pose proof (WL _ _ H). lia. }
  assert (N0 : ~ anc (s_heap two) 2 0). { apply not_anc_top; [vm_compute; reflexivity|lia]. }
  assert (N4 : ~ anc (s_heap two) 2 4). { apply not_anc_top; [vm_compute; reflexivity|lia]. }
  assert (ALL : forallb (fun j => match s_heap two j with Some n => plain_kind n | None => false end || Nat.eqb j 0 || Nat.eqb j 4) (seq 0 6) = true)
    by (vm_compute; reflexivity).
  rewrite forallb_forall in ALL. assert (I : In j (seq 0 6)) by (apply in_seq; lia). apply ALL in I. rewrite H in I.
  apply orb_prop in I as [I|I]; [apply orb_prop in I as [I|I]; auto|]; apply Nat.eqb_eq in I; subst; tauto.
Qed.
Lemma two_live : live (s_heap two) 4.
Proof. apply livesb_ok. vm_compute. reflexivity. Qed.
Lemma two_editable : ~ read_only (s_heap two) 2.
Proof. apply (editable 10 two two_client); [apply two_reach|apply two_short'|apply livesb_ok; vm_compute; reflexivity|vm_compute; reflexivity]. Qed.
Lemma two_kids : children (s_heap two) 0 [1] /\ children (s_heap two) 1 [2] /\ children (s_heap two) 2 [3] /\ children (s_heap two) 4 [5].
Proof. split; [|split; [|split]]; apply kidsn_children; vm_compute; reflexivity. Qed.

Lemma two_case : reach 10 two two_client /\ short 11 /\ usable_by two_client 2 /\ holds two_client 4 /\ live (s_heap two) 4 /\ importable (s_heap two) 2 /\
  type_of (s_heap two) 2 = Some ELEMENT /\ ~ read_only (s_heap two) 2 /\ parent_of (s_heap two) 2 = Some 1 /\ type_of (s_heap two) 1 = Some ELEMENT /\
  children (s_heap two) 2 [3] /\ owner_of (s_heap two) 2 = Some 0 /\ type_of (s_heap two) 4 = Some DOCUMENT /\ owner_of (s_heap two) 5 = Some 4.
Proof.
  split; [apply two_reach|]. split; [apply two_short|]. split; [split; vm_compute; reflexivity|]. split; [vm_compute; reflexivity|]. split; [apply two_live|].
  split; [apply two_importable|]. split; [vm_compute; reflexivity|]. split; [apply two_editable|]. split; [vm_compute; reflexivity|]. split; [vm_compute; reflexivity|].
  split; [apply two_kids|]. split; [vm_compute; reflexivity|]. split; vm_compute; reflexivity.
Qed.

Lemma label_import : reach 16 label label_client /\ short 17 /\ usable_by label_client 5 /\ holds label_client 8 /\ live (s_heap label) 8 /\ importable (s_heap label) 5 /\
  type_of (s_heap label) 5 = Some ELEMENT /\ ~ read_only (s_heap label) 5 /\ parent_of (s_heap label) 5 = Some 1 /\ type_of (s_heap label) 1 = Some ELEMENT /\
  (exists n, s_heap label 5 = Some n /\ n_type n = ELEMENT /\ n_attrs n = [6]) /\ children (s_heap label) 6 [7].
Proof.
  split; [apply label_reach|]. split; [apply demo_short; lia|]. split; [split; vm_compute; reflexivity|]. split; [vm_compute; reflexivity|]. split; [apply livesb_ok; vm_compute; reflexivity|].
  split. { intros j n A H. apply (label_plain j n); auto. assert (P : exists n, s_heap label 5 = Some n /\ n_parent n = Some 1).
    { assert (X : parent_of (s_heap label) 5 = Some 1) by (vm_compute; reflexivity). unfold parent_of in X. destruct (s_heap label 5) as [m|]; [|discriminate]. exists m. auto. }
    destruct P as (m & P1 & P2). eapply anc_trans; [|exact A]. eapply anc_step; [exact P1|exact P2|apply anc_refl]. }
  split; [vm_compute; reflexivity|]. split; [apply (editable 16 label label_client); [apply label_reach|apply label_short|apply livesb_ok; vm_compute; reflexivity|vm_compute; reflexivity]|].
  split; [vm_compute; reflexivity|]. split; [vm_compute; reflexivity|]. split; [apply attrs_made; vm_compute; reflexivity|apply kidsn_children; vm_compute; reflexivity].
Qed.

(** The root element of a document cannot be adopted. *)
Lemma adopt_root : exists k s g i doc s', reach k s g /\ short (S k) /\ usable_by g i /\ holds g doc /\ type_of (s_heap s) doc = Some DOCUMENT /\
  type_of (s_heap s) i = Some ELEMENT /\ ~ read_only (s_heap s) i /\ adopt_node doc i s = Exc NOT_SUPPORTED_ERR s'.
Proof.
  assert (X : exists s', adopt_node 4 1 two = Exc NOT_SUPPORTED_ERR s') by (apply val_exc; vm_compute; reflexivity).
  destruct X as [s' X]. exists 10, two, two_client, 1, 4, s'.
  split; [apply two_reach|]. split; [apply two_short|]. split; [split; vm_compute; reflexivity|]. split; [vm_compute; reflexivity|].
  split; [vm_compute; reflexivity|]. split; [vm_compute; reflexivity|]. split; [|exact X].
  apply (editable 10 two two_client); [apply two_reach|apply two_short'|apply livesb_ok; vm_compute; reflexivity|vm_compute; reflexivity].
Qed.

(** The copies below the root of an import are never given back. *)
Definition left_by {A} (r : res st A) : st := match r with Ok _ s => s | _ => empty_st end.
Definition imported : st := left_by (import_node 4 2 true two).
Definition dropped : st := left_by (node_unref 6 imported).
Lemma import_keeps : exists k s g i doc j s1 s2 c n, reach k s g /\ short (S k) /\ usable_by g i /\ holds g doc /\ type_of (s_heap s) doc = Some DOCUMENT /\
  import_node doc i true s = Ok (Fresh j) s1 /\ s_heap s c = None /\ children (s_heap s1) j [c] /\
  node_unref j s1 = Ok tt s2 /\ s_heap s2 j = None /\ s_heap s2 c = Some n /\ n_ref n = 1%N /\ n_parent n = None.
Proof.
  assert (E1 : import_node 4 2 true two = Ok (Fresh 6) imported).
  { unfold imported. assert (X : exists s', import_node 4 2 true two = Ok (Fresh 6) s') by (apply val_ok; vm_compute; reflexivity). destruct X as [s' X]. rewrite X. reflexivity. }
  assert (E2 : node_unref 6 imported = Ok tt dropped).
  { unfold dropped. assert (X : exists s', node_unref 6 imported = Ok tt s') by (apply val_ok; vm_compute; reflexivity). destruct X as [s' X]. rewrite X. reflexivity. }
  assert (E3 : option_map (fun n => (n_ref n, n_parent n)) (s_heap dropped 7) = Some (1%N, None)) by (vm_compute; reflexivity).
  destruct (s_heap dropped 7) as [n|] eqn:H; [|discriminate E3]. injection E3 as E4 E5.
  exists 10, two, two_client, 2, 4, 6, imported, dropped, 7, n.
  split; [apply two_reach|]. split; [apply two_short|]. split; [split; vm_compute; reflexivity|]. split; [vm_compute; reflexivity|].
  split; [vm_compute; reflexivity|]. split; [exact E1|]. split; [vm_compute; reflexivity|]. split; [apply kidsn_children; vm_compute; reflexivity|].
  split; [exact E2|]. split; [vm_compute; reflexivity|]. split; [exact H|]. split; auto.
Qed.

Lemma two_text : exists k s g i doc, reach k s g /\ short (S k) /\ usable_by g i /\ holds g doc /\ type_of (s_heap s) doc = Some DOCUMENT /\
  type_of (s_heap s) i = Some TEXT.
Proof.
  exists 10, two, two_client, 3, 4. split; [apply two_reach|]. split; [apply two_short|]. split; [split; vm_compute; reflexivity|].
  split; [vm_compute; reflexivity|]. split; vm_compute; reflexivity.
Qed.

(** The element 5 of [label], with its attribute, imported without children. *)
Lemma label_shallow : exists n, s_heap label 5 = Some n /\ n_type n = ELEMENT /\ n_attrs n = [6] /\ clonable (n_type n) /\
  (forall a j m, In a (n_attrs n) -> anc (s_heap label) a j -> s_heap label j = Some m -> clonable (n_type m)).
Proof.
  destruct label_import as (_ & _ & _ & _ & _ & IM & _ & _ & _ & _ & (n & H & T & A) & _). exists n. split; [exact H|]. split; [exact T|]. split; [exact A|].
  split; [rewrite T; left; reflexivity|]. intros a j m I G K. rewrite A in I. destruct I as [<-|[]]. apply (IM j m); [|exact K].
  assert (X : parent_of (s_heap label) 6 = Some 5) by (vm_compute; reflexivity). unfold parent_of in X. destruct (s_heap label 6) as [b|] eqn:B; [|discriminate].
  eapply anc_trans; [|exact G]. eapply anc_step; [exact B|exact X|apply anc_refl].
Qed.
