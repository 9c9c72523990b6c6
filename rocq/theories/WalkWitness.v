(** Concrete pages for the walks, and the runs behind the refuted statements. *)
From Coq Require Import List Arith NArith Bool Lia.
From Verif Require Import Base HeapModel HeapSpec HeapInv HeapExec HistModel HistProofs TreeSpec TreeProofs TreeProofs3 TreeProofs4 TreeWitness
  WalkModel WalkSpec WalkProofs WalkLists WalkFinds WalkIds WalkTree WalkText WalkReach WalkCheck.
Import ListNotations.
Local Open Scope dom_scope.

(** ** From computation to the specification *)

(** Document order by computation. *)
Fixpoint ordn (f : nat) (s : st) (i : id) : option (list id) :=
  match f with
  | O => None
  | S f =>
      match kidsn s i with
      | None => None
      | Some l =>
          option_map (fun ls => i :: concat ls)
            ((fix go l := match l with
                          | [] => Some []
                          | c :: l => match ordn f s c, go l with Some a, Some b => Some (a :: b) | _, _ => None end
                          end) l)
      end
  end.
Lemma ordn_order : forall f s i l, ordn f s i = Some l -> order (s_heap s) i l.
Proof.
  induction f; intros s i l E; [discriminate|]. cbn [ordn] in E. destruct (kidsn s i) as [k|] eqn:K; [|discriminate].
  apply kidsn_children in K.
  match type of E with option_map _ ?x = _ => destruct x as [ls|] eqn:G; [|discriminate] end.
  simpl in E. inversion E; subst. apply (order_node _ _ k ls); auto. clear - IHf G.
  revert ls G. induction k as [|c k]; intros ls G. { inversion G. constructor. }
  destruct (ordn f s c) as [a|] eqn:A; [|discriminate].
  match type of G with match ?x with _ => _ end = _ => destruct x as [b|] eqn:B; [|discriminate] end.
  inversion G; subst. constructor; auto.
Qed.

Definition picksb {A} (P : A -> bool) (l : list A) : list A := filter P l.
Lemma picks_sel : forall (A : Type) (P : A -> Prop) (b : A -> bool) l, (forall x, b x = true <-> P x) -> picks P l (filter b l).
Proof. intros A P b l H. apply (picks_filter A P b l (filter b l)); auto. Qed.

(** ** A page with attributes

    0 the document; 1 <html> below it with a comment 12 after it; below 1:
    2 <div id="a">, 3 the text "hi", 4 <p>; below 4: 6 the text "yo",
    7 <div name="a">, 5 a comment.  8 and 9 are the id attribute of 2 and its
    text, 10 and 11 the name attribute of 7 and its text. *)
Definition nd (t : ntype) (name value : option bytes) (parent first last prev next : option id) (attrs : list id) : node :=
  mkNode t name value None None parent first last prev next (Some 0) 0 false attrs [] [] false.
Definition s_html : bytes := [104; 116; 109; 108]%N.
Definition s_div : bytes := [100; 105; 118]%N.
Definition s_DIV : bytes := [68; 73; 86]%N.
Definition s_p : bytes := [112]%N.
Definition s_a : bytes := [97]%N.
Definition s_hi : bytes := [104; 105]%N.
Definition s_yo : bytes := [121; 111]%N.
Definition page_heap (i : id) : option node :=
  match i with
  | 0 => Some (set_ref 1 (nd DOCUMENT None None None (Some 1) (Some 12) None None []))
  | 1 => Some (nd ELEMENT (Some s_html) None (Some 0) (Some 2) (Some 4) None (Some 12) [])
  | 2 => Some (nd ELEMENT (Some s_div) None (Some 1) None None None (Some 3) [8])
  | 3 => Some (nd TEXT None (Some s_hi) (Some 1) None None (Some 2) (Some 4) [])
  | 4 => Some (nd ELEMENT (Some s_p) None (Some 1) (Some 6) (Some 5) (Some 3) None [])
  | 5 => Some (nd COMMENT None (Some s_a) (Some 4) None None (Some 7) None [])
  | 6 => Some (nd TEXT None (Some s_yo) (Some 4) None None None (Some 7) [])
  | 7 => Some (nd ELEMENT (Some s_div) None (Some 4) None None (Some 6) (Some 5) [10])
  | 8 => Some (nd ATTRIBUTE (Some id_string) None (Some 2) (Some 9) (Some 9) None None [])
  | 9 => Some (nd TEXT None (Some s_a) (Some 8) None None None None [])
  | 10 => Some (nd ATTRIBUTE (Some name_string) None (Some 7) (Some 11) (Some 11) None None [])
  | 11 => Some (nd TEXT None (Some s_a) (Some 10) None None None None [])
  | 12 => Some (nd COMMENT None None (Some 0) None None (Some 1) None [])
  | _ => None
  end.
Definition page : st := mkSt page_heap 13 [].
Lemma page_dead : forall i, 13 <= i -> page_heap i = None.
Proof. intros i H. do 13 (destruct i as [|i]; [lia|]). reflexivity. Qed.
Lemma page_linked : linked page /\ counted page.
Proof. apply linkedb_ok; [exact page_dead|vm_compute; reflexivity]. Qed.
Lemma page_order : order (s_heap page) 0 [0; 1; 2; 3; 4; 6; 7; 5; 12] /\ order (s_heap page) 1 [1; 2; 3; 4; 6; 7; 5].
Proof. split; apply (ordn_order 10); vm_compute; reflexivity. Qed.

Definition is_tag (name : bytes) (i : id) : bool :=
  match page_heap i with Some n => ntype_eqb (n_type n) ELEMENT && isequal (n_name n) (Some name) | None => false end.

Lemma page_divs : descendants (s_heap page) 0 (has_tag true s_DIV) [2; 7].
Proof.
  exists [1; 2; 3; 4; 6; 7; 5; 12]. split; [exact (proj1 page_order)|].
  assert (D : forall i, {exists n, page_heap i = Some n /\ has_tag true s_DIV n} + {~ exists n, page_heap i = Some n /\ has_tag true s_DIV n}).
  { intros i. destruct (page_heap i) as [n|] eqn:H.
    - destruct (len_counts (list_by_name true 0 s_DIV) n) eqn:E.
      + left. exists n. split; auto. apply (by_name_counts true 0 s_DIV n). auto.
      + right. intros (m & A & B). inversion A; subst. apply (by_name_counts true 0 s_DIV m) in B. congruence.
    - right. intros (m & A & _). discriminate. }
  assert (P : picks (fun i => exists n, page_heap i = Some n /\ has_tag true s_DIV n) [1; 2; 3; 4; 6; 7; 5; 12]
    (filter (selb page_heap (len_counts (list_by_name true 0 s_DIV))) [1; 2; 3; 4; 6; 7; 5; 12])).
  { apply picks_sel. intros x. unfold selb. destruct (page_heap x) as [n|].
    - rewrite (proj1 (by_name_counts true 0 s_DIV n)). split; [intros T; exists n; auto|]. intros (m & A & B). congruence.
    - split; [discriminate|]. intros (m & A & _). discriminate. }
  exact P.
Qed.

Lemma page_texts : texts (s_heap page) [2; 3; 4; 6; 7; 5] [s_hi; s_yo].
Proof.
  apply (tx_other _ 2 (nd ELEMENT (Some s_div) None (Some 1) None None None (Some 3) [8])); [reflexivity|left; split; discriminate|].
  eapply (tx_text _ 3); [reflexivity|left; reflexivity|reflexivity|].
  eapply (tx_other _ 4); [reflexivity|left; split; discriminate|].
  eapply (tx_text _ 6); [reflexivity|left; reflexivity|reflexivity|].
  eapply (tx_other _ 7); [reflexivity|left; split; discriminate|].
  eapply (tx_other _ 5); [reflexivity|left; split; discriminate|]. constructor.
Qed.

Lemma page_has_a : has_attr (s_heap page) 2 id_string s_a.
Proof.
  exists (nd ELEMENT (Some s_div) None (Some 1) None None None (Some 3) [8]), 8. split; [reflexivity|]. split; [reflexivity|].
  split. { apply (fn_here _ _ 8 (nd ATTRIBUTE (Some id_string) None (Some 2) (Some 9) (Some 9) None None [])); reflexivity. }
  change s_a with (concat [s_a]). apply (says_text _ 8 [9]). { apply kidsn_children. vm_compute. reflexivity. }
  constructor; [|constructor]. exists (nd TEXT None (Some s_a) (Some 8) None None None None []). auto.
Qed.

Lemma page_plain : plain_attributes (s_heap page).
Proof.
  intros a na l c H T C I. change (page_heap a = Some na) in H.
  assert (A : a = 8 \/ a = 10).
  { do 13 (destruct a as [|a]; [inversion H; subst; try discriminate; auto; fail|]). discriminate. }
  destruct A as [-> | ->].
  - assert (l = [9]) by (apply (kidsn_det page 8 [9] l); [vm_compute; reflexivity|exact C]). subst. destruct I as [<-|[]]. reflexivity.
  - assert (l = [11]) by (apply (kidsn_det page 10 [11] l); [vm_compute; reflexivity|exact C]). subst. destruct I as [<-|[]]. reflexivity.
Qed.

(** Every node but the document collected. *)
Definition not_doc (i : id) : bool := negb (Nat.eqb i 0).

(** ** Reached by clients *)

(** A document 0 with root element 1 ("p"); below it 2 ("rect" with prefix
    "svg" in some namespace) and 3 ("p" without namespace, childless), 4 ("p"). *)
Definition s_svg : bytes := [115; 118; 103]%N.
Definition s_rect : bytes := [114; 101; 99; 116]%N.
Definition lists_ops : list op :=
  [ONewDocument; OCreate 0 ELEMENT (Some s_p) None None None;
   OCreate 0 ELEMENT (Some s_rect) None (Some s_svg) (Some s_svg);
   OCreate 0 ELEMENT (Some s_p) None None None; OCreate 0 ELEMENT (Some s_p) None None None;
   OAppend 0 1; OAppend 1 2; OAppend 1 3; OAppend 1 4].
Definition lists_st : st := fst (played lists_ops).
Lemma lists_reach : reach 9 lists_st (snd (played lists_ops)).
Proof. apply (played_reach lists_ops); [vm_compute; reflexivity|unfold short; vm_compute; reflexivity]. Qed.
Lemma lists_linked : linked lists_st /\ counted lists_st.
Proof.
  split; [apply (reach_linked 9 _ _ lists_reach)|apply (reach_counted 9 _ _ lists_reach)]; apply demo_short; lia.
Qed.

Definition item_of (r : res st (option id)) : option (option id) := match r with Ok o _ => Some o | _ => None end.
Lemma item_of_ok : forall r o, item_of r = Some o -> exists s', r = Ok o s'.
Proof. intros [x s'|e s'|b] o E; inversion E. eauto. Qed.
Definition length_of (r : res st N) : option N := match r with Ok o _ => Some o | _ => None end.
Lemma length_of_ok : forall r o, length_of r = Some o -> exists s', r = Ok o s'.
Proof. intros [x s'|e s'|b] o E; inversion E. eauto. Qed.
Definition bad_of {A} (r : res st A) : option bad := match r with Bad b => Some b | _ => None end.
Lemma bad_of_ok : forall A (r : res st A) b, bad_of r = Some b -> r = Bad b.
Proof. intros A [x s'|e s'|b] o E; inversion E. reflexivity. Qed.
Definition calls_of (r : res st (list call)) : option (list call) := match r with Ok o _ => Some o | _ => None end.
Lemma calls_of_ok : forall r o, calls_of r = Some o -> exists s', r = Ok o s'.
Proof. intros [x s'|e s'|b] o E; inversion E. eauto. Qed.
Definition name_of (r : res st bytes) : option bytes := match r with Ok o _ => Some o | _ => None end.
Lemma name_of_ok : forall r o, name_of r = Some o -> exists s', r = Ok o s'.
Proof. intros [x s'|e s'|b] o E; inversion E. eauto. Qed.

(** item(2^32 - 1) of a tag-name list. *)
Lemma max_index : exists k s g root name x s1 s', reach k s g /\ short k /\
  list_length (list_by_name false root name) s = Ok 0%N s1 /\
  list_item (list_by_name false root name) (two32 - 1) s = Ok (Some x) s'.
Proof.
  destruct (item_of_ok (list_item (list_by_name false 0 s_div) (two32 - 1) lists_st) (Some 1)) as (s' & E); [vm_compute; reflexivity|].
  destruct (length_of_ok (list_length (list_by_name false 0 s_div) lists_st) 0%N) as (s1 & E1); [vm_compute; reflexivity|].
  exists 9, lists_st, (snd (played lists_ops)), 0, s_div, 1, s1, s'. split; [exact lists_reach|]. split; [apply demo_short; lia|]. auto.
Qed.

(** The tag name of a prefixed element does not find it. *)
Lemma prefixed : exists k s g root i tag s1 s', reach k s g /\ short k /\
  order (s_heap s) root [root; i; 3; 4] /\ type_of (s_heap s) i = Some ELEMENT /\ get_node_name i s = Ok tag s' /\
  list_length (list_by_name false root tag) s = Ok 0%N s1.
Proof.
  destruct (name_of_ok (get_node_name 2 lists_st) (s_svg ++ [58%N] ++ s_rect)) as (s' & E); [vm_compute; reflexivity|].
  destruct (length_of_ok (list_length (list_by_name false 1 (s_svg ++ [58%N] ++ s_rect)) lists_st) 0%N) as (s1 & E1); [vm_compute; reflexivity|].
  exists 9, lists_st, (snd (played lists_ops)), 1, 2, (s_svg ++ [58%N] ++ s_rect), s1, s'. split; [exact lists_reach|]. split; [apply demo_short; lia|].
  split; [apply (ordn_order 10); vm_compute; reflexivity|]. split; [vm_compute; reflexivity|]. auto.
Qed.

(** A list for no namespace counts elements it does not deliver. *)
Lemma null_ns : exists k s g root local s1 s', reach k s g /\ short k /\
  list_length (list_by_ns false root None local) s = Ok 2%N s1 /\
  list_item (list_by_ns false root None local) 0 s = Ok None s'.
Proof.
  destruct (item_of_ok (list_item (list_by_ns false 1 None (Some s_p)) 0 lists_st) None) as (s' & E); [vm_compute; reflexivity|].
  destruct (length_of_ok (list_length (list_by_ns false 1 None (Some s_p)) lists_st) 2%N) as (s1 & E1); [vm_compute; reflexivity|].
  exists 9, lists_st, (snd (played lists_ops)), 1, (Some s_p), s1, s'. split; [exact lists_reach|]. split; [apply demo_short; lia|]. auto.
Qed.

(** A collection rooted at an empty element with a sibling after it. *)
Lemma empty_root : exists k s g root n, reach k s g /\ short k /\ s_heap s root = Some n /\ n_first n = None /\
  col_length (fun _ => true) root s = Bad NullDeref.
Proof.
  destruct (liveb_some lists_st 3) as (n & H); [vm_compute; reflexivity|].
  exists 9, lists_st, (snd (played lists_ops)), 3, n. split; [exact lists_reach|]. split; [apply demo_short; lia|]. split; auto.
  split; [|apply bad_of_ok; vm_compute; reflexivity].
  assert (X : match s_heap lists_st 3 with Some n => n_first n | None => None end = None) by (vm_compute; reflexivity). rewrite H in X. exact X.
Qed.
Lemma col_max : exists k s g root x s1 s', reach k s g /\ short k /\ col_length (fun _ => false) root s = Ok 0%N s1 /\
  col_item (fun _ => false) root (two32 - 1) s = Ok (Some x) s'.
Proof.
  destruct (item_of_ok (col_item (fun _ => false) 1 (two32 - 1) lists_st) (Some 1)) as (s' & E); [vm_compute; reflexivity|].
  destruct (length_of_ok (col_length (fun _ => false) 1 lists_st) 0%N) as (s1 & E1); [vm_compute; reflexivity|].
  exists 9, lists_st, (snd (played lists_ops)), 1, 1, s1, s'. split; [exact lists_reach|]. split; [apply demo_short; lia|]. auto.
Qed.

(** A document with two root elements: the id of the second is not found. *)
Definition two_heap (i : id) : option node :=
  match i with
  | 0 => Some (set_ref 1 (nd DOCUMENT None None None (Some 1) (Some 2) None None []))
  | 1 => Some (nd ELEMENT (Some s_html) None (Some 0) (Some 3) (Some 3) None (Some 2) [])
  | 2 => Some (nd ELEMENT (Some s_div) None (Some 0) None None (Some 1) None [8])
  | 3 => Some (nd TEXT None (Some s_hi) (Some 1) None None None None [])
  | 8 => Some (nd ATTRIBUTE (Some id_string) None (Some 2) (Some 9) (Some 9) None None [])
  | 9 => Some (nd TEXT None (Some s_a) (Some 8) None None None None [])
  | _ => None
  end.
Definition two : st := mkSt two_heap 10 [].
Lemma two_linked : linked two /\ counted two.
Proof.
  apply linkedb_ok; [|vm_compute; reflexivity]. intros i H. cbn in H. change (two_heap i = None).
  do 10 (destruct i as [|i]; [lia|]). reflexivity.
Qed.
Lemma two_roots : exists s d l x v s', linked s /\ counted s /\ type_of (s_heap s) d = Some DOCUMENT /\
  order (s_heap s) d (d :: l) /\ In x l /\ has_attr (s_heap s) x id_string v /\ get_element_by_id d (Some v) s = Ok None s'.
Proof.
  destruct (item_of_ok (get_element_by_id 0 (Some s_a) two) None) as (s' & E); [vm_compute; reflexivity|].
  exists two, 0, [1; 3; 2], 2, s_a, s'. split; [apply two_linked|]. split; [apply two_linked|]. split; [reflexivity|].
  split; [apply (ordn_order 10); vm_compute; reflexivity|]. split; [simpl; auto|]. split; [|exact E].
  exists (nd ELEMENT (Some s_div) None (Some 0) None None (Some 1) None [8]), 8. split; [reflexivity|]. split; [reflexivity|].
  split. { apply (fn_here _ _ 8 (nd ATTRIBUTE (Some id_string) None (Some 2) (Some 9) (Some 9) None None [])); reflexivity. }
  change s_a with (concat [s_a]). apply (says_text _ 8 [9]). { apply kidsn_children. vm_compute. reflexivity. }
  constructor; [|constructor]. exists (nd TEXT None (Some s_a) (Some 8) None None None None []). auto.
Qed.

(** A walk with LEAVE calls only, the client answering SKIP at the first. *)
Definition skip_third (tr : list call) : cmd := match tr with [_; _; _] => SKIP | _ => CONTINUE end.
Lemma leave_only : exists k s g cb root ds j tr s', reach k s g /\ short k /\
  (forall w, cb w <> ABORT) /\ order (s_heap s) root (root :: ds) /\ In j ds /\
  treewalk (mkMask false true) cb root s = Ok tr s' /\ ~ In (LEAVE, j) tr.
Proof.
  destruct (calls_of_ok (treewalk (mkMask false true) skip_third 1 demo_st)
    [(LEAVE, 3); (LEAVE, 2); (LEAVE, 5); (LEAVE, 6)]) as (s' & E); [vm_compute; reflexivity|].
  exists 16, demo_st, demo_client, skip_third, 1, [3; 2; 5; 6; 7], 7, [(LEAVE, 3); (LEAVE, 2); (LEAVE, 5); (LEAVE, 6)], s'.
  split; [exact demo_reach|]. split; [apply demo_short; lia|].
  split. { intros w. destruct w as [|? [|? [|? [|? ?]]]]; discriminate. }
  split; [apply (ordn_order 10); vm_compute; reflexivity|]. split; [simpl; auto 6|]. split; [exact E|].
  simpl. intros [X|[X|[X|[X|[]]]]]; discriminate.
Qed.

(** ** The cases shown beside the theorems *)
Lemma page_child_nodes : linked page /\ counted page /\ children (s_heap page) 4 [6; 7; 5] /\
  item_of (list_item (list_children 4) 1 page) = Some (Some 7) /\ item_of (list_item (list_children 4) 3 page) = Some None.
Proof.
  split; [apply page_linked|]. split; [apply page_linked|]. split; [apply kidsn_children; vm_compute; reflexivity|].
  split; vm_compute; reflexivity.
Qed.

Lemma order_det : forall s, linked s -> forall i l l', order (s_heap s) i l -> order (s_heap s) i l' -> l = l'.
Proof.
  intros s L i l l' O O'. assert (LI : live (s_heap s) i) by (inversion O as [? ? ? (n & A & _) ?]; exists n; auto).
  destruct (linked_tree _ L _ LI) as (t & R & <-). rewrite (order_pre _ _ R _ O), (order_pre _ _ R _ O'). reflexivity.
Qed.
Lemma few_below : forall s, linked s -> forall i ds, order (s_heap s) i (i :: ds) -> (N.of_nat (length ds) <? two32)%N = true -> below_count (s_heap s) i.
Proof.
  intros s L i ds O B ds' O'. pose proof (order_det s L _ _ _ O O') as Q. inversion Q; subst. apply N.ltb_lt. auto.
Qed.

Lemma page_by_tag : linked page /\ counted page /\ below_count (s_heap page) 0 /\
  descendants (s_heap page) 0 (has_tag true s_DIV) [2; 7] /\
  item_of (list_item (list_by_name true 0 s_DIV) 1 page) = Some (Some 7).
Proof.
  split; [apply page_linked|]. split; [apply page_linked|].
  split; [apply (few_below _ (proj1 page_linked) 0 _ (proj1 page_order)); reflexivity|]. split; [exact page_divs|vm_compute; reflexivity].
Qed.

Lemma lists_by_ns : linked lists_st /\ counted lists_st /\ below_count (s_heap lists_st) 0 /\
  descendants (s_heap lists_st) 0 (has_ns_tag false (Some s_svg) (Some [42%N])) [2] /\
  item_of (list_item (list_by_ns false 0 (Some s_svg) (Some [42%N])) 0 lists_st) = Some (Some 2).
Proof.
  assert (O : order (s_heap lists_st) 0 [0; 1; 2; 3; 4]) by (apply (ordn_order 10); vm_compute; reflexivity).
  split; [apply lists_linked|]. split; [apply lists_linked|].
  split; [apply (few_below _ (proj1 lists_linked) 0 _ O); reflexivity|]. split; [|vm_compute; reflexivity].
  exists [1; 2; 3; 4]. split; auto.
  assert (E : [2] = filter (selb (s_heap lists_st) (len_counts (list_by_ns false 0 (Some s_svg) (Some [42%N])))) [1; 2; 3; 4]) by (vm_compute; reflexivity).
  rewrite E. apply picks_sel. intros x. unfold selb. destruct (s_heap lists_st x) as [n|].
  - rewrite (proj1 (by_ns_counts false 0 (Some s_svg) (Some [42%N]) n)). split; [intros T; exists n; auto|]. intros (m & A & B). congruence.
  - split; [discriminate|]. intros (m & A & _). discriminate.
Qed.

Lemma page_collection : linked page /\ counted page /\ plain_attributes (s_heap page) /\
  order (s_heap page) 4 [4; 6; 7; 5] /\
  picks (fun i => type_of (s_heap page) i = Some ELEMENT /\ not_doc i = true) [4; 6; 7; 5] [4; 7] /\
  item_of (col_item not_doc 4 1 page) = Some (Some 7) /\ item_of (col_named not_doc 4 s_a page) = Some (Some 7) /\
  item_of (col_named not_doc 1 s_a page) = Some (Some 2).
Proof.
  split; [apply page_linked|]. split; [apply page_linked|]. split; [apply page_plain|].
  split; [apply (ordn_order 10); vm_compute; reflexivity|].
  split. { apply picks_yes; [split; reflexivity|]. apply picks_no; [intros [A _]; discriminate|]. apply picks_yes; [split; reflexivity|].
    apply picks_no; [intros [A _]; discriminate|]. constructor. }
  split; [vm_compute; reflexivity|]. split; vm_compute; reflexivity.
Qed.

Lemma page_by_id : linked page /\ counted page /\ at_most_one (s_heap page) 0 ELEMENT /\
  order (s_heap page) 0 [0; 1; 2; 3; 4; 6; 7; 5; 12] /\ has_attr (s_heap page) 2 id_string s_a /\
  item_of (get_element_by_id 0 (Some s_a) page) = Some (Some 2) /\ item_of (get_element_by_id 0 (Some s_hi) page) = Some None.
Proof.
  split; [apply page_linked|]. split; [apply page_linked|]. split.
  { intros l x y C I1 I2 T1 T2. assert (l = [1; 12]) by (apply (kidsn_det page 0 [1; 12] l); [vm_compute; reflexivity|exact C]). subst.
    simpl in I1, I2. destruct I1 as [<-|[<-|[]]], I2 as [<-|[<-|[]]]; auto; discriminate. }
  split; [apply page_order|]. split; [apply page_has_a|]. split; vm_compute; reflexivity.
Qed.

Lemma page_walks : linked page /\
  calls_of (treewalk (mkMask true true) (fun tr => match tr with [_; _; _; _] => SKIP | _ => CONTINUE end) 1 page) =
    Some [(ENTER, 2); (LEAVE, 2); (ENTER, 3); (LEAVE, 3); (ENTER, 4); (ENTER, 6); (LEAVE, 6); (ENTER, 7); (LEAVE, 7); (ENTER, 5); (LEAVE, 5); (LEAVE, 4)] /\
  calls_of (treewalk (mkMask true false) (fun tr => match tr with [_; _; _] => SKIP | _ => CONTINUE end) 1 page) =
    Some [(ENTER, 2); (ENTER, 3); (ENTER, 4)].
Proof. split; [apply page_linked|]. split; vm_compute; reflexivity. Qed.

Lemma page_text : linked page /\ order (s_heap page) 1 [1; 2; 3; 4; 6; 7; 5] /\
  texts (s_heap page) [2; 3; 4; 6; 7; 5] [s_hi; s_yo] /\ joined [s_hi; s_yo] = Some (s_hi ++ s_yo).
Proof. split; [apply page_linked|]. split; [apply page_order|]. split; [exact page_texts|reflexivity]. Qed.
