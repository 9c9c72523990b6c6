(** A table with cells and rows out of place, by history. *)
From Coq Require Import List Arith NArith ZArith Bool Lia.
From Verif Require Import Base HeapModel HeapSpec HeapInv HeapExec HistModel HistProofs TreeSpec TreeProofs TreeProofs4 TreeWitness WalkModel WalkSpec WalkProofs WalkReach WalkLists WalkFinds WalkWitness
  ContentWitness ChildAttrWitness HtmlModel CellModel HtmlSpec HtmlBase HtmlSelect HtmlTables HtmlReach CellSpec CellReach HtmlWitness.
Import ListNotations.

(** 2 a table with the head 3, the foot 5, the body 7 and the row 17 in no section; the
    row 8 has the cells 10 and 11, the row 9 a cell 13 within 12; the row 14 and the
    section 15 with the row 16 are in no document. *)
Definition grid_ops : list op :=
  [ONewDocument; named s_HTML; named s_TABLE; named s_THEAD; named s_TR; named s_TFOOT; named s_TR; named s_TBODY; named s_TR; named s_TR; named s_TD; named s_TD; named s_DIV; named s_TD;
   named s_TR; named s_TBODY; named s_TR; named s_TR;
   OAppend 0 1; OAppend 1 2; OAppend 2 3; OAppend 3 4; OAppend 2 5; OAppend 5 6; OAppend 2 7; OAppend 7 8; OAppend 7 9; OAppend 8 10; OAppend 8 11; OAppend 9 12; OAppend 12 13;
   OAppend 15 16; OAppend 2 17].
Definition grid : st := fst (played grid_ops).
Definition grid_client : client := snd (played grid_ops).
Lemma grid_reach : reach 33 grid grid_client.
Proof. apply (played_reach grid_ops); [vm_compute; reflexivity|unfold short; vm_compute; reflexivity]. Qed.
Lemma grid_brief : briefly 33.
Proof. unfold briefly. vm_compute. reflexivity. Qed.
Lemma grid_short : short 33.
Proof. unfold short. vm_compute. reflexivity. Qed.
Lemma grid_writable : forallb (writableb grid) [7; 8; 9] = true.
Proof. vm_compute. reflexivity. Qed.
Lemma grid_editable : forall i, In i [7; 8; 9] -> ~ read_only (s_heap grid) i.
Proof. exact (writable_all grid grid_client 33 _ grid_reach grid_short grid_writable). Qed.
Lemma cells_made : forall s e k, listedb true s_TD s e k = true -> cells (s_heap s) e k.
Proof. intros s e k H. apply listedb_ok in H; [exact H|discriminate|discriminate]. Qed.
Definition elementb (s : st) (i : id) : bool := match s_heap s i with Some n => ntype_eqb (n_type n) ELEMENT | None => false end.
Lemma names_made : forall name s l, forallb (elementb s) l = true -> names_elements name (s_heap s) l.
Proof.
  intros name s l F x n b I H _ _. rewrite forallb_forall in F. specialize (F x I). unfold elementb in F. rewrite H in F. apply ntype_eqb_eq. exact F.
Qed.
Lemma count_made : forall s l m, length (filter (tagb true s_TR s) l) = m -> row_count (s_heap s) l m.
Proof. intros s l m E. exists (filter (tagb true s_TR s) l). split; auto. apply picks_sel. intros x. apply tagb_ok; discriminate. Qed.
Definition flatb (s : st) (e : id) (k : list id) : bool := forallb (fun x => oid_eqb (parent_of (s_heap s) x) (Some e)) k.
Lemma flat_made : forall s e k, flatb s e k = true -> flat (s_heap s) e k.
Proof. intros s e k F x I. unfold flatb in F. rewrite forallb_forall in F. specialize (F x I). destruct (parent_of (s_heap s) x) as [p|]; [|discriminate]. cbn in F. apply Nat.eqb_eq in F. congruence. Qed.

Lemma cells_case : reach 33 grid grid_client /\ briefly 33 /\ cells (s_heap grid) 8 [10; 11] /\ ~ read_only (s_heap grid) 8 /\ row_at [10; 11] 1 = Some 11 /\ row_named [10; 11] (-1) = Some 11 /\
  parent_of (s_heap grid) 11 = Some 8 /\ cells (s_heap grid) 9 [13] /\ ~ read_only (s_heap grid) 9 /\ row_named [13] 0 = Some 13 /\ parent_of (s_heap grid) 13 = Some 12.
Proof.
  split; [apply grid_reach|]. split; [apply grid_brief|]. split; [apply cells_made; vm_compute; reflexivity|]. split; [apply grid_editable; cbn; tauto|]. split; [reflexivity|]. split; [reflexivity|].
  split; [vm_compute; reflexivity|]. split; [apply cells_made; vm_compute; reflexivity|]. split; [apply grid_editable; cbn; tauto|]. split; [reflexivity|vm_compute; reflexivity].
Qed.
Lemma flat_case : reach 33 grid grid_client /\ briefly 33 /\ rows (s_heap grid) 7 [8; 9] /\ flat (s_heap grid) 7 [8; 9] /\ ~ read_only (s_heap grid) 7 /\ nth_error [8; 9] 1 = Some 9.
Proof.
  split; [apply grid_reach|]. split; [apply grid_brief|]. split; [apply rows_made; vm_compute; reflexivity|]. split; [apply flat_made; vm_compute; reflexivity|].
  split; [apply grid_editable; cbn; tauto|reflexivity].
Qed.
Ltac made := apply part_made; [discriminate|discriminate|vm_compute; reflexivity].
Ltac unmade := apply part_not; [discriminate|discriminate|vm_compute; reflexivity].
Lemma grid_rows : rows (s_heap grid) 3 [4].
Proof. apply rows_made; vm_compute; reflexivity. Qed.
Lemma grid_bodies : body_rows (s_heap grid) [3; 5] 0.
Proof. apply br_other; [unmade|]. apply br_other; [unmade|]. constructor. Qed.
Lemma grid_bodies' : body_rows (s_heap grid) [3] 0.
Proof. apply br_other; [unmade|]. constructor. Qed.
Lemma grid_head : head_rows (s_heap grid) [3; 5; 7; 17] 1.
Proof. exists (Some 3). split; [apply ft_here; made|]. exists [4]. split; [apply grid_rows|reflexivity]. Qed.
Lemma index_case : reach 33 grid grid_client /\ briefly 33 /\ children (s_heap grid) 2 [3; 5; 7; 17] /\ part s_TABLE (s_heap grid) 2 /\ part s_THEAD (s_heap grid) 3 /\ children (s_heap grid) 3 [4] /\
  children (s_heap grid) 7 [8; 9] /\ part s_TR (s_heap grid) 4 /\ part s_TR (s_heap grid) 9 /\ part s_TBODY (s_heap grid) 7 /\ row_count (s_heap grid) [8] 1 /\
  head_rows (s_heap grid) [3; 5; 7; 17] 1 /\ body_rows (s_heap grid) [3; 5] 0 /\ names_elements s_TBODY (s_heap grid) [3; 5].
Proof.
  split; [apply grid_reach|]. split; [apply grid_brief|]. split; [apply kidsn_children; vm_compute; reflexivity|]. split; [made|]. split; [made|]. split; [apply kidsn_children; vm_compute; reflexivity|].
  split; [apply kidsn_children; vm_compute; reflexivity|]. split; [made|]. split; [made|]. split; [made|]. split; [apply count_made; vm_compute; reflexivity|].
  split; [apply grid_head|]. split; [apply grid_bodies|apply names_made; vm_compute; reflexivity].
Qed.
Lemma twins_case : reach 33 grid grid_client /\ briefly 33 /\ children (s_heap grid) 2 ([3] ++ 5 :: [] ++ 7 :: [17]) /\ part s_TABLE (s_heap grid) 2 /\ part s_TFOOT (s_heap grid) 5 /\
  part s_TBODY (s_heap grid) 7 /\ names_elements s_TBODY (s_heap grid) ([3] ++ 5 :: []) /\ head_rows (s_heap grid) ([3] ++ 5 :: [] ++ 7 :: [17]) 1 /\ body_rows (s_heap grid) [3] 0 /\
  body_rows (s_heap grid) ([3] ++ 5 :: []) 0 /\ children (s_heap grid) 5 ([] ++ 6 :: []) /\ children (s_heap grid) 7 ([] ++ 8 :: [9]) /\ part s_TR (s_heap grid) 6 /\ part s_TR (s_heap grid) 8 /\
  row_count (s_heap grid) [] 0.
Proof.
  split; [apply grid_reach|]. split; [apply grid_brief|]. split; [apply kidsn_children; vm_compute; reflexivity|]. split; [made|]. split; [made|]. split; [made|].
  split; [apply names_made; vm_compute; reflexivity|]. split; [apply grid_head|]. split; [apply grid_bodies'|]. split; [apply grid_bodies|]. split; [apply kidsn_children; vm_compute; reflexivity|].
  split; [apply kidsn_children; vm_compute; reflexivity|]. split; [made|]. split; [made|apply count_made; vm_compute; reflexivity].
Qed.
Lemma astray_case : reach 33 grid grid_client /\ briefly 33 /\ parent_of (s_heap grid) 14 = None /\ live (s_heap grid) 14 /\
  children (s_heap grid) 15 [16] /\ part s_TR (s_heap grid) 16 /\ parent_of (s_heap grid) 15 = None /\
  children (s_heap grid) 2 ([3; 5; 7] ++ 17 :: []) /\ part s_TR (s_heap grid) 17 /\ parent_of (s_heap grid) 2 = Some 1 /\ type_of (s_heap grid) 2 = Some ELEMENT /\
  type_of (s_heap grid) 1 = Some ELEMENT /\ ~ part s_TABLE (s_heap grid) 1.
Proof.
  split; [apply grid_reach|]. split; [apply grid_brief|]. split; [vm_compute; reflexivity|]. split; [apply livesb_ok; vm_compute; reflexivity|]. split; [apply kidsn_children; vm_compute; reflexivity|].
  split; [made|]. split; [vm_compute; reflexivity|]. split; [apply kidsn_children; vm_compute; reflexivity|]. split; [made|]. split; [vm_compute; reflexivity|]. split; [vm_compute; reflexivity|].
  split; [vm_compute; reflexivity|unmade].
Qed.
