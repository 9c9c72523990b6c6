(** An element with children and an attribute, by history. *)
From Coq Require Import List Arith NArith Bool Lia.
From Verif Require Import Base HeapModel HeapSpec HeapInv HeapExec HeapLoops HistModel HistProofs TreeSpec TreeProofs TreeProofs3 TreeProofs4 TreeWitness ChildAttrSpec ChildAttrProofs.
Import ListNotations.

(** Node 0 is a document, 1 an element with the children 2 and 3 and the attribute
    4; 5 is another element, 6 another attribute, of nothing. *)
Definition id_name : option bytes := Some [105; 100]%N.
Definition lang_name : option bytes := Some [108; 97; 110; 103]%N.
Definition tagged : list op :=
  [ONewDocument; new ELEMENT; new TEXT; new COMMENT; OCreate 0 ATTRIBUTE id_name None None None; new ELEMENT; OCreate 0 ATTRIBUTE lang_name None None None;
   OAppend 0 1; OAppend 1 2; OAppend 1 3; OSetAttribute 1 4].
Definition tagged_st : st := fst (played tagged).
Definition tagged_client : client := snd (played tagged).
Lemma tagged_reach : reach 11 tagged_st tagged_client.
Proof. apply (played_reach tagged); [vm_compute; reflexivity|unfold short; vm_compute; reflexivity]. Qed.

Lemma tagged_attribute : attribute_of (s_heap tagged_st) 1 4.
Proof. exists [4]. split; [|left; reflexivity]. eexists. split; [vm_compute; reflexivity|reflexivity]. Qed.
Lemma tagged_kids : children (s_heap tagged_st) 1 [2; 3].
Proof. apply kidsn_children. vm_compute. reflexivity. Qed.
Lemma tagged_held : holds tagged_client 1 /\ holds tagged_client 4 /\ holds tagged_client 5 /\ holds tagged_client 6.
Proof. split; [|split; [|split]]; vm_compute; reflexivity. Qed.
Lemma editable : forall k s g i, reach k s g -> short k -> live (s_heap s) i ->
  match readonly i s with Ok b _ => negb b | _ => false end = true -> ~ read_only (s_heap s) i.
Proof.
  intros k s g i R SH L E RO. destruct (reach_good _ _ _ R SH) as [[ch W] AG]. destruct W as (WL & WT & WO & WR).
  destruct (readonly_ok s ch WL WT i L) as (ro & X & Y). rewrite X in E. apply Y in RO. subst ro. discriminate.
Qed.
Lemma tagged_editable : ~ read_only (s_heap tagged_st) 1.
Proof.
  apply (editable 11 tagged_st tagged_client); [apply tagged_reach|apply demo_short; lia|apply livesb_ok; vm_compute; reflexivity|vm_compute; reflexivity].
Qed.

(** The three calls, run. *)
Definition after (r : res st id) : st := match r with Ok _ s => s | _ => empty_st end.
Definition answersb (r : res st id) (i : id) : bool := match r with Ok x _ => Nat.eqb x i | _ => false end.
Lemma answers_ok : forall r i, answersb r i = true -> r = Ok i (after r).
Proof. intros [x s|e s|b] i H; try discriminate. apply Nat.eqb_eq in H. subst. reflexivity. Qed.

Lemma insert_at_attribute : insert_before 1 5 (Some 4) tagged_st = Ok 5 (after (insert_before 1 5 (Some 4) tagged_st)).
Proof. apply answers_ok. vm_compute. reflexivity. Qed.
Lemma insert_at_attribute_kids : children (s_heap (after (insert_before 1 5 (Some 4) tagged_st))) 1 [5; 4].
Proof. apply kidsn_children. vm_compute. reflexivity. Qed.
Lemma replace_attribute : replace_child 1 5 4 tagged_st = Ok 4 (after (replace_child 1 5 4 tagged_st)).
Proof. apply answers_ok. vm_compute. reflexivity. Qed.
Lemma replace_attribute_kids : children (s_heap (after (replace_child 1 5 4 tagged_st))) 1 [5].
Proof. apply kidsn_children. vm_compute. reflexivity. Qed.

Lemma insert_refuted : exists k s g e c a l l' s', reach k s g /\ short (S k) /\ usable_by g e /\ usable_by g c /\ holds g a /\
  attribute_of (s_heap s) e a /\ children (s_heap s) e l /\
  insert_before e c (Some a) s = Ok c s' /\ children (s_heap s') e l' /\ In a l' /\ (forall x, In x l -> ~ In x l').
Proof.
  exists 11, tagged_st, tagged_client, 1, 5, 4, [2; 3], [5; 4], (after (insert_before 1 5 (Some 4) tagged_st)).
  split; [apply tagged_reach|]. split; [apply demo_short; lia|]. split; [split; vm_compute; reflexivity|]. split; [split; vm_compute; reflexivity|].
  split; [vm_compute; reflexivity|]. split; [apply tagged_attribute|]. split; [apply tagged_kids|].
  split; [apply insert_at_attribute|]. split; [apply insert_at_attribute_kids|]. split; [right; left; reflexivity|].
  intros x [<-|[<-|[]]] [Z|[Z|[]]]; discriminate.
Qed.
Lemma replace_refuted : exists k s g e c a l l' s', reach k s g /\ short (S k) /\ usable_by g e /\ usable_by g c /\ holds g a /\
  attribute_of (s_heap s) e a /\ children (s_heap s) e l /\
  replace_child e c a s = Ok a s' /\ children (s_heap s') e l' /\ l <> [] /\ (forall x, In x l -> ~ In x l').
Proof.
  exists 11, tagged_st, tagged_client, 1, 5, 4, [2; 3], [5], (after (replace_child 1 5 4 tagged_st)).
  split; [apply tagged_reach|]. split; [apply demo_short; lia|]. split; [split; vm_compute; reflexivity|]. split; [split; vm_compute; reflexivity|].
  split; [vm_compute; reflexivity|]. split; [apply tagged_attribute|]. split; [apply tagged_kids|].
  split; [apply replace_attribute|]. split; [apply replace_attribute_kids|]. split; [discriminate|].
  intros x [<-|[<-|[]]] [Z|[]]; discriminate.
Qed.

(** The hypotheses of the theorem on removeChild, met by this element. *)
Lemma tagged_unused : unused_name (s_heap tagged_st) 1 lang_name.
Proof.
  split; [discriminate|]. intros b nb (l & (n & A & L) & I) B. subst l.
  assert (X : exists m, s_heap tagged_st 1 = Some m /\ n_attrs m = [4]) by (eexists; split; [vm_compute; reflexivity|reflexivity]).
  destruct X as (m & M & P). assert (m = n) by congruence. subst m. rewrite P in I. destruct I as [<-|[]].
  assert (Y : exists m, s_heap tagged_st 4 = Some m /\ n_name m = id_name) by (eexists; split; [vm_compute; reflexivity|reflexivity]).
  destruct Y as (y & Y1 & Y2). assert (y = nb) by congruence. subst y. rewrite Y2. discriminate.
Qed.

Lemma tagged_ready : reach 11 tagged_st tagged_client /\ holds tagged_client 1 /\ holds tagged_client 0 /\
  type_of (s_heap tagged_st) 1 = Some ELEMENT /\ type_of (s_heap tagged_st) 0 = Some DOCUMENT /\ owner_of (s_heap tagged_st) 1 = Some 0 /\
  ~ read_only (s_heap tagged_st) 1 /\ unused_name (s_heap tagged_st) 1 lang_name /\ children (s_heap tagged_st) 1 [2; 3].
Proof.
  split; [apply tagged_reach|]. split; [vm_compute; reflexivity|]. split; [vm_compute; reflexivity|]. split; [vm_compute; reflexivity|].
  split; [vm_compute; reflexivity|]. split; [vm_compute; reflexivity|]. split; [apply tagged_editable|]. split; [apply tagged_unused|]. apply tagged_kids.
Qed.

Lemma tagged_legal_remove : legal tagged_st tagged_client (ORemove 1 2).
Proof. apply (legalb_ok 11 tagged_st tagged_client _ tagged_reach (demo_short 11 ltac:(lia))). vm_compute. reflexivity. Qed.
Lemma tagged_edit : exists r s', legal tagged_st tagged_client (ORemove 1 2) /\ exec (ORemove 1 2) tagged_st = Ok r s' /\ attributes (s_heap s') 1 [4].
Proof.
  assert (X := answers_ok (remove_child 1 2 tagged_st) 2 ltac:(vm_compute; reflexivity)).
  exists (OutNode (Some 2)), (after (remove_child 1 2 tagged_st)). split; [apply tagged_legal_remove|].
  split. { exact (bind_ok _ _ _ _ (fun i => ret (OutNode (Some i))) _ _ _ X). }
  eexists. split; [vm_compute; reflexivity|reflexivity].
Qed.
Lemma tagged_foreign : remove_child 1 6 tagged_st = Exc NOT_FOUND_ERR tagged_st /\ insert_before 1 5 (Some 6) tagged_st = Exc NOT_FOUND_ERR tagged_st /\
  replace_child 1 5 6 tagged_st = Exc NOT_FOUND_ERR tagged_st.
Proof.
  destruct tagged_held as (H1 & H4 & H5 & H6).
  assert (T : type_of (s_heap tagged_st) 6 = Some ATTRIBUTE) by (vm_compute; reflexivity).
  assert (P : parent_of (s_heap tagged_st) 6 <> Some 1). { assert (Z : parent_of (s_heap tagged_st) 6 = None) by (vm_compute; reflexivity). rewrite Z. discriminate. }
  assert (O : owner_of (s_heap tagged_st) 5 = owner_of (s_heap tagged_st) 1) by (vm_compute; reflexivity).
  assert (D : type_of (s_heap tagged_st) 1 <> Some DOCUMENT). { assert (Z : type_of (s_heap tagged_st) 1 = Some ELEMENT) by (vm_compute; reflexivity). rewrite Z. discriminate. }
  destruct (foreign_attribute 11 tagged_st tagged_client tagged_reach (demo_short 12 ltac:(lia)) 1 6 H1 H6 T P) as [A B].
  destruct (B 5 H5 O tagged_editable) as [B1 B2]. auto.
Qed.
