(** A form and some tables, by history. *)
From Coq Require Import List Arith NArith ZArith Bool Lia.
From Verif Require Import Base HeapModel HeapSpec HeapInv HeapExec HistModel HistProofs TreeSpec TreeProofs TreeProofs4 TreeWitness WalkModel WalkSpec WalkProofs WalkReach WalkLists WalkFinds WalkWitness
  ContentWitness ChildAttrWitness HtmlModel CellModel HtmlSpec HtmlBase HtmlSelect HtmlTables HtmlReach.
Import ListNotations.

(** ** From computation to the specification *)
Definition tagb (c : bool) (name : bytes) (s : st) (i : id) : bool :=
  match s_heap s i with Some n => element_node n && eq_of c (n_name n) (Some name) | None => false end.
Lemma tagb_ok : forall c name s i, name <> [] -> name <> [42%N] -> (tagb c name s i = true <-> exists n, s_heap s i = Some n /\ has_tag c name n).
Proof.
  intros c name s i N1 N2. unfold tagb. destruct (s_heap s i) as [n|].
  - rewrite (has_tag_iff c name n N1 N2). split; [intros H; exists n; auto|]. intros (m & M & H). congruence.
  - split; [discriminate|]. intros (m & M & _). discriminate.
Qed.
Definition filledb (s : st) (i : id) : bool :=
  match s_heap s i with Some n => ntype_eqb (n_type n) ELEMENT && (negb (is_none (n_first n)) || is_none (n_next n)) | None => false end.
Lemma filledb_ok : forall s i, filledb s i = true -> filled (s_heap s) i.
Proof.
  intros s i F. unfold filledb in F. unfold filled. destruct (s_heap s i) as [n|]; [|discriminate]. exists n. split; auto. apply andb_prop in F as [F1 F2].
  apply ntype_eqb_eq in F1. split; auto. apply orb_prop in F2 as [F2|F2]; [left; destruct (n_first n); discriminate|right; destruct (n_next n); [discriminate|auto]].
Qed.
Definition listedb (c : bool) (name : bytes) (s : st) (e : id) (k : list id) : bool :=
  filledb s e && negb (existsb (Nat.eqb e) k) &&
  match ordn 20 s e with Some l => (N.of_nat (length l) <? 2147483648)%N && if list_eq_dec Nat.eq_dec (filter (tagb c name s) l) k then true else false | None => false end.
Lemma listedb_ok : forall c name s e k, name <> [] -> name <> [42%N] -> listedb c name s e k = true -> filled (s_heap s) e /\ ~ In e k /\ listed c name (s_heap s) e k.
Proof.
  intros c name s e k N1 N2 H. unfold listedb in H. apply andb_prop in H as [H H3]. apply andb_prop in H as [H1 H2]. split; [apply filledb_ok; auto|]. split.
  - intros I. apply negb_true_iff in H2. assert (X : existsb (Nat.eqb e) k = true) by (apply existsb_exists; exists e; split; auto; apply Nat.eqb_refl). congruence.
  - destruct (ordn 20 s e) as [l|] eqn:O; [|discriminate]. apply andb_prop in H3 as [H3 H4]. destruct (list_eq_dec Nat.eq_dec (filter (tagb c name s) l) k) as [E|]; [|discriminate].
    exists l. split; [eapply ordn_order; eauto|]. split; [apply N.ltb_lt; auto|]. rewrite <- E. apply picks_sel. intros x. apply tagb_ok; auto.
Qed.
Lemma rows_made : forall s e k, listedb true s_TR s e k = true -> rows (s_heap s) e k.
Proof. intros s e k H. apply listedb_ok in H; [exact H|discriminate|discriminate]. Qed.
Lemma options_made : forall s e k, listedb false s_OPTION s e k = true -> options (s_heap s) e k.
Proof. intros s e k H. apply listedb_ok in H; [exact H|discriminate|discriminate]. Qed.
Lemma part_made : forall s (name : bytes) i, name <> [] -> name <> [42%N] -> tagb true name s i = true -> part name (s_heap s) i.
Proof. intros s name i N1 N2 H. apply tagb_ok in H; auto. Qed.
Lemma part_not : forall s (name : bytes) i, name <> [] -> name <> [42%N] -> tagb true name s i = false -> ~ part name (s_heap s) i.
Proof. intros s name i N1 N2 H P. assert (Q : tagb true name s i = true) by (apply tagb_ok; auto). congruence. Qed.
Definition carriesb (s : st) (name : bytes) (i : id) : bool :=
  match s_heap s i with
  | Some n => existsb (fun a => match s_heap s a with Some na => if list_eq_dec N.eq_dec (no_null (n_name na)) name then true else false | None => false end) (n_attrs n)
  | None => false
  end.
Lemma carriesb_ok : forall s name i, carriesb s name i = true -> carries (s_heap s) name i.
Proof.
  intros s name i H. unfold carriesb in H. unfold carries. destruct (s_heap s i) as [n|]; [|discriminate]. apply existsb_exists in H as (a & I & H).
  destruct (s_heap s a) as [na|] eqn:A; [|discriminate]. destruct (list_eq_dec N.eq_dec (no_null (n_name na)) name) as [E|]; [|discriminate]. exists n, a, na. auto.
Qed.

(** 2 a select with the options 3, 4 and 5, of which 4 has the attribute "selected";
    7 a table with the head 8, the body 10 and the foot 13; 15 a table without a head,
    its body 16 with a row 18 that is not a child of it; 19 a table with an empty body
    20 before its foot 21; 22 a table with the head 23 and the row 25 in no section. *)
Definition named (n : bytes) : op := OCreate 0 ELEMENT (Some n) None None None.
Definition s_HTML : bytes := [72; 84; 77; 76]%N.
Definition s_SELECT : bytes := [83; 69; 76; 69; 67; 84]%N.

Definition form_ops : list op :=
  [ONewDocument; named s_HTML; named s_SELECT; named s_OPTION; named s_OPTION; named s_OPTION; OCreate 0 ATTRIBUTE (Some s_selected) None None None;
   named s_TABLE; named s_THEAD; named s_TR; named s_TBODY; named s_TR; named s_TR; named s_TFOOT; named s_TR;
   named s_TABLE; named s_TBODY; named s_DIV; named s_TR; named s_TABLE; named s_TBODY; named s_TFOOT; named s_TABLE; named s_THEAD; named s_TR; named s_TR;
   OAppend 0 1; OAppend 1 2; OAppend 2 3; OAppend 2 4; OAppend 2 5; OSetAttribute 4 6;
   OAppend 1 7; OAppend 7 8; OAppend 8 9; OAppend 7 10; OAppend 10 11; OAppend 10 12; OAppend 7 13; OAppend 13 14;
   OAppend 1 15; OAppend 15 16; OAppend 16 17; OAppend 17 18; OAppend 1 19; OAppend 19 20; OAppend 19 21;
   OAppend 1 22; OAppend 22 23; OAppend 23 24; OAppend 22 25].
Definition form : st := fst (played form_ops).
Definition form_client : client := snd (played form_ops).
Lemma form_reach : reach 51 form form_client.
Proof. apply (played_reach form_ops); [vm_compute; reflexivity|unfold short; vm_compute; reflexivity]. Qed.
Lemma form_brief : briefly 51.
Proof. unfold briefly. vm_compute. reflexivity. Qed.
Lemma form_short : short 51.
Proof. unfold short. vm_compute. reflexivity. Qed.
Definition writableb (s : st) (i : id) : bool := livesb s i && match readonly i s with Ok b _ => negb b | _ => false end.
Lemma form_writable : forallb (writableb form) [2; 5; 8; 10; 13; 16] = true.
Proof. vm_compute. reflexivity. Qed.
Lemma writable_all : forall s g k l, reach k s g -> short k -> forallb (writableb s) l = true -> forall i, In i l -> ~ read_only (s_heap s) i.
Proof.
  intros s g k l R SH F i I. rewrite forallb_forall in F. specialize (F i I). unfold writableb in F. apply andb_prop in F as [F1 F2].
  apply (editable k s g); auto. apply livesb_ok. exact F1.
Qed.
Lemma form_editable : forall i, In i [2; 5; 8; 10; 13; 16] -> ~ read_only (s_heap form) i.
Proof. exact (writable_all form form_client 51 _ form_reach form_short form_writable). Qed.
Lemma form_options : options (s_heap form) 2 [3; 4; 5].
Proof. apply options_made. vm_compute. reflexivity. Qed.
Lemma form_selected : carries (s_heap form) s_selected 4.
Proof. apply carriesb_ok. vm_compute. reflexivity. Qed.

Lemma form_tables : rows (s_heap form) 7 [9; 11; 12; 14] /\ rows (s_heap form) 8 [9] /\ rows (s_heap form) 10 [11; 12] /\ rows (s_heap form) 13 [14] /\
  rows (s_heap form) 15 [18] /\ rows (s_heap form) 16 [18].
Proof. split; [|split; [|split; [|split; [|split]]]]; apply rows_made; vm_compute; reflexivity. Qed.

Lemma empty_section : section_insert_row 20 (-1) form = Bad NullDeref /\ section_delete_row 20 (-1) form = Bad NullDeref.
Proof. split; apply val_bad; vm_compute; reflexivity. Qed.

Lemma select_case : reach 51 form form_client /\ briefly 51 /\ options (s_heap form) 2 [3; 4; 5] /\ nth_error [3; 4; 5] (Z.to_nat 2) = Some 5 /\ ~ read_only (s_heap form) 5 /\
  ~ read_only (s_heap form) 2 /\ carries (s_heap form) s_selected 4.
Proof.
  split; [apply form_reach|]. split; [apply form_brief|]. split; [apply form_options|]. split; [reflexivity|]. split; [apply form_editable; cbn; tauto|].
  split; [apply form_editable; cbn; tauto|]. apply form_selected.
Qed.
Lemma section_case : reach 51 form form_client /\ briefly 51 /\ rows (s_heap form) 10 [11; 12] /\ ~ read_only (s_heap form) 10 /\ row_at [11; 12] 1 = Some 12 /\
  row_named [11; 12] (-1) = Some 12 /\ parent_of (s_heap form) 12 = Some 10 /\
  rows (s_heap form) 16 [18] /\ ~ read_only (s_heap form) 16 /\ row_named [18] 0 = Some 18 /\ parent_of (s_heap form) 18 = Some 17.
Proof.
  destruct form_tables as (R1 & R2 & R3 & R4 & R5 & R6). split; [apply form_reach|]. split; [apply form_brief|]. split; [exact R3|]. split; [apply form_editable; cbn; tauto|].
  split; [reflexivity|]. split; [reflexivity|]. split; [vm_compute; reflexivity|]. split; [exact R6|]. split; [apply form_editable; cbn; tauto|]. split; [reflexivity|vm_compute; reflexivity].
Qed.
Lemma form_parts : first_that (part s_THEAD (s_heap form)) [8; 10; 13] (Some 8) /\ body_rows (s_heap form) [8] 0 /\ part s_TBODY (s_heap form) 10 /\
  body_rows (s_heap form) [8; 10; 13] 2 /\ first_that (part s_TFOOT (s_heap form)) [8; 10; 13] (Some 13).
Proof.
  destruct form_tables as (R1 & R2 & R3 & R4 & R5 & R6).
  assert (N : forall i, tagb true s_TBODY form i = false -> ~ part s_TBODY (s_heap form) i) by (intros i; apply part_not; discriminate).
  assert (B : part s_TBODY (s_heap form) 10) by (apply part_made; [discriminate|discriminate|vm_compute; reflexivity]).
  split. { apply ft_here. apply part_made; [discriminate|discriminate|vm_compute; reflexivity]. }
  split. { apply br_other; [apply N; vm_compute; reflexivity|constructor]. }
  split; [exact B|]. split.
  - apply br_other; [apply N; vm_compute; reflexivity|]. apply (br_body _ 10 [11; 12] [13] 0); auto. apply br_other; [apply N; vm_compute; reflexivity|constructor].
  - apply ft_next; [apply part_not; [discriminate|discriminate|vm_compute; reflexivity]|]. apply ft_next; [apply part_not; [discriminate|discriminate|vm_compute; reflexivity]|].
    apply ft_here. apply part_made; [discriminate|discriminate|vm_compute; reflexivity].
Qed.
Lemma table_case : reach 51 form form_client /\ briefly 51 /\ rows (s_heap form) 7 [9; 11; 12; 14] /\ children (s_heap form) 7 [8; 10; 13] /\
  first_that (part s_THEAD (s_heap form)) [8; 10; 13] (Some 8) /\ rows (s_heap form) 8 [9] /\ body_rows (s_heap form) [8] 0 /\ part s_TBODY (s_heap form) 10 /\
  rows (s_heap form) 10 [11; 12] /\ body_rows (s_heap form) [8; 10; 13] 2 /\ first_that (part s_TFOOT (s_heap form)) [8; 10; 13] (Some 13) /\ rows (s_heap form) 13 [14] /\
  ~ read_only (s_heap form) 8 /\ ~ read_only (s_heap form) 10 /\ ~ read_only (s_heap form) 13 /\
  parent_of (s_heap form) 9 = Some 8 /\ parent_of (s_heap form) 12 = Some 10 /\ parent_of (s_heap form) 14 = Some 13.
Proof.
  destruct form_tables as (R1 & R2 & R3 & R4 & R5 & R6). destruct form_parts as (P1 & P2 & P3 & P4 & P5).
  split; [apply form_reach|]. split; [apply form_brief|]. split; [exact R1|]. split; [apply kidsn_children; vm_compute; reflexivity|].
  repeat (split; [first [assumption|apply form_editable; cbn; tauto|vm_compute; reflexivity]|]). vm_compute; reflexivity.
Qed.
Lemma headless_case : reach 51 form form_client /\ briefly 51 /\ rows (s_heap form) 15 [18] /\ children (s_heap form) 15 [16] /\
  (forall x, In x [16] -> ~ part s_THEAD (s_heap form) x).
Proof.
  destruct form_tables as (R1 & R2 & R3 & R4 & R5 & R6). split; [apply form_reach|]. split; [apply form_brief|]. split; [exact R5|]. split; [apply kidsn_children; vm_compute; reflexivity|].
  intros x [<-|[]]. apply part_not; [discriminate|discriminate|vm_compute; reflexivity].
Qed.
Lemma empty_section_case : exists k s g t e f, reach k s g /\ briefly k /\ holds g e /\ children (s_heap s) e [] /\ part s_TBODY (s_heap s) e /\
  children (s_heap s) t [e; f] /\ section_insert_row e (-1) s = Bad NullDeref /\ section_delete_row e (-1) s = Bad NullDeref.
Proof.
  exists 51, form, form_client, 19, 20, 21. split; [apply form_reach|]. split; [apply form_brief|]. split; [vm_compute; reflexivity|].
  split; [apply kidsn_children; vm_compute; reflexivity|]. split; [apply part_made; [discriminate|discriminate|vm_compute; reflexivity]|].
  split; [apply kidsn_children; vm_compute; reflexivity|]. apply empty_section.
Qed.

Lemma footless_case : reach 51 form form_client /\ briefly 51 /\ rows (s_heap form) 22 [24; 25] /\ children (s_heap form) 22 [23; 25] /\
  first_that (part s_THEAD (s_heap form)) [23; 25] (Some 23) /\ rows (s_heap form) 23 [24] /\ body_rows (s_heap form) [23; 25] 0 /\
  (forall x, In x [23; 25] -> ~ part s_TFOOT (s_heap form) x) /\ (Z.of_nat (length [24]%nat + 0) <= at_index [24; 25]%nat true (-1))%Z.
Proof.
  split; [apply form_reach|]. split; [apply form_brief|]. split; [apply rows_made; vm_compute; reflexivity|]. split; [apply kidsn_children; vm_compute; reflexivity|].
  split. { apply ft_here. apply part_made; [discriminate|discriminate|vm_compute; reflexivity]. } split; [apply rows_made; vm_compute; reflexivity|].
  split. { apply br_other; [apply part_not; [discriminate|discriminate|vm_compute; reflexivity]|]. apply br_other; [apply part_not; [discriminate|discriminate|vm_compute; reflexivity]|constructor]. }
  split; [|vm_compute; discriminate]. intros x [<-|[<-|[]]]; (apply part_not; [discriminate|discriminate|vm_compute; reflexivity]).
Qed.
