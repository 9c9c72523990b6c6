(** Concrete runs of setTextContent, cloneNode, normalize and isEqualNode. *)
From Coq Require Import List Arith NArith Bool Lia.
From Verif Require Import Base HeapModel HeapSpec HeapExec HistModel HistProofs TreeSpec TreeProofs4 TreeWitness WalkModel WalkSpec WalkReach
  ChildAttrWitness CharDataModel CharDataWitness ContentModel ContentSpec ContentProofs ContentClone.
Import ListNotations.

(** [words] with the element 1 below the element 9, followed by the empty element
    10; a processing instruction 11 below the element 12; and one of the two
    references to the text 3 given back. *)
Definition book_ops : list op :=
  words ++ [new ELEMENT; new ELEMENT; OAppend 9 1; OAppend 9 10; new PI; new ELEMENT; OAppend 12 11; OUnref 3].
Definition book : st := fst (played book_ops).
Definition reader : client := snd (played book_ops).
Lemma book_reach : reach 22 book reader.
Proof. apply (played_reach book_ops); [vm_compute; reflexivity|unfold short; vm_compute; reflexivity]. Qed.
Lemma book_short : short 22.
Proof. apply demo_short; lia. Qed.
Lemma book_linked : linked book.
Proof. eapply reach_linked; [exact book_reach|exact book_short]. Qed.
Lemma book_kids : children (s_heap book) 9 [1; 10] /\ children (s_heap book) 1 [2; 3; 4; 5; 6] /\ children (s_heap book) 12 [11].
Proof. repeat split; apply kidsn_children; vm_compute; reflexivity. Qed.

Definition seen (s : st) (i : id) : option (ntype * option id * option bytes * list id) :=
  option_map (fun n => (n_type n, n_parent n, n_value n, n_attrs n)) (s_heap s i).
Lemma seen_some : forall s i t p v a, seen s i = Some (t, p, v, a) ->
  exists n, s_heap s i = Some n /\ n_type n = t /\ n_parent n = p /\ n_value n = v /\ n_attrs n = a.
Proof. unfold seen. intros s i t p v a E. destruct (s_heap s i) as [n|]; [|discriminate]. inversion E; subst. exists n; auto. Qed.

Lemma typed : forall s i t, option_map n_type (s_heap s i) = Some t -> exists n, s_heap s i = Some n /\ n_type n = t.
Proof. intros s i t E. destruct (s_heap s i) as [n|]; [|discriminate]. inversion E. eauto. Qed.

(** Results and projections of runs. *)
Definition val {A} (r : res st A) : option (A + exn + bad) :=
  Some match r with Ok a _ => inl (inl a) | Exc e _ => inl (inr e) | Bad b => inr b end.
Lemma val_ok : forall A (r : res st A) a, val r = Some (inl (inl a)) -> exists s, r = Ok a s.
Proof. intros A r a E. destruct r; inversion E; subst; eauto. Qed.
Lemma val_exc : forall A (r : res st A) e, val r = Some (inl (inr e)) -> exists s, r = Exc e s.
Proof. intros A r a E. destruct r; inversion E; subst; eauto. Qed.
Lemma val_bad : forall A (r : res st A) b, val r = Some (inr b) -> r = Bad b.
Proof. intros A r a E. destruct r; inversion E; subst; eauto. Qed.

(** 9, 1 and everything below them can be cloned and hold no attributes. *)
Lemma anc_up : forall h a i n, anc h a i -> h i = Some n -> i = a \/ exists p, n_parent n = Some p /\ anc h a p.
Proof. intros h a i n A H. destruct A as [|i m p Hm P A]; auto. right. exists p. split; congruence. Qed.
Lemma not_anc_top : forall s a i, option_map n_parent (s_heap s i) = Some None -> i <> a -> ~ anc (s_heap s) a i.
Proof.
  intros s a i E N A. destruct (s_heap s i) as [n|] eqn:H; [|discriminate]. inversion E as [P].
  destruct (anc_up _ _ _ _ A H) as [X|(p & X & _)]; congruence.
Qed.
Lemma not_anc_step : forall s a i p, option_map n_parent (s_heap s i) = Some (Some p) -> i <> a -> ~ anc (s_heap s) a p -> ~ anc (s_heap s) a i.
Proof.
  intros s a i p E N NP A. destruct (s_heap s i) as [n|] eqn:H; [|discriminate]. inversion E as [P].
  destruct (anc_up _ _ _ _ A H) as [X|(q & X & Y)]; [congruence|]. apply NP. congruence.
Qed.

Definition plain_kind (n : node) : bool :=
  match n_type n with ELEMENT|FRAGMENT|ATTRIBUTE|TEXT|CDATA|COMMENT => true | _ => false end.
Lemma plain_kind_ok : forall n, plain_kind n = true -> clonable (n_type n).
Proof. unfold plain_kind, clonable. intros n. destruct (n_type n); try discriminate; intros _; simpl; auto 10. Qed.
Lemma book_plain : forall j n, anc (s_heap book) 9 j -> s_heap book j = Some n -> clonable (n_type n).
Proof.
  intros j n A H. apply plain_kind_ok.
  assert (LT : j < 13). { assert (X : s_nxt book = 13) by (vm_compute; reflexivity). destruct (reach_good _ _ _ book_reach book_short) as [[ch (WL & _)] _].
    pose proof (WL _ _ H). lia. }
  assert (N0 : j <> 0). { intros ->. revert A. apply not_anc_top; [vm_compute; reflexivity|lia]. }
  assert (N1 : j <> 11). { intros ->. revert A. apply (not_anc_step _ _ _ 12); [vm_compute; reflexivity|lia|]. apply not_anc_top; [vm_compute; reflexivity|lia]. }
  assert (ALL : forallb (fun j => match s_heap book j with Some n => plain_kind n | None => false end || Nat.eqb j 0 || Nat.eqb j 11) (seq 0 13) = true)
    by (vm_compute; reflexivity).
  rewrite forallb_forall in ALL. assert (I : In j (seq 0 13)) by (apply in_seq; lia). apply ALL in I. rewrite H in I.
  apply orb_prop in I as [I|I]; [apply orb_prop in I as [I|I]; auto|]; apply Nat.eqb_eq in I; lia.
Qed.
Lemma clone_case : reach 22 book reader /\ short 22 /\ usable_by reader 9 /\ children (s_heap book) 9 [1; 10] /\
  children (s_heap book) 1 [2; 3; 4; 5; 6] /\
  (forall j n, anc (s_heap book) 9 j -> s_heap book j = Some n -> clonable (n_type n)).
Proof.
  split; [exact book_reach|]. split; [exact book_short|]. split; [split; vm_compute; reflexivity|]. destruct book_kids as (A & B & _).
  split; auto. split; auto. exact book_plain.
Qed.


(** A document 0 whose root element 1 has the attribute 4 and the children 2, 3 and
    5; the element 5 has the attribute 6 and that has the text 7; 8 is another
    document. *)
Definition label_ops : list op := tagged ++ [OAppend 1 5; OSetAttribute 5 6; new TEXT; OAppend 6 7; ONewDocument].
Definition label : st := fst (played label_ops).
Definition label_client : client := snd (played label_ops).
Lemma label_reach : reach 16 label label_client.
Proof. apply (played_reach label_ops); [vm_compute; reflexivity|unfold short; vm_compute; reflexivity]. Qed.
Lemma label_short : short 16.
Proof. apply demo_short; lia. Qed.
Lemma label_plain : forall j n, anc (s_heap label) 1 j -> s_heap label j = Some n -> clonable (n_type n).
Proof.
  intros j n A H. apply plain_kind_ok.
  assert (LT : j < 9). { assert (X : s_nxt label = 9) by (vm_compute; reflexivity). destruct (reach_good _ _ _ label_reach label_short) as [[ch (WL & _)] _].
    pose proof (WL _ _ H). lia. }
  assert (N0 : ~ anc (s_heap label) 1 0). { apply not_anc_top; [vm_compute; reflexivity|lia]. }
  assert (N8 : ~ anc (s_heap label) 1 8). { apply not_anc_top; [vm_compute; reflexivity|lia]. }
  assert (ALL : forallb (fun j => match s_heap label j with Some n => plain_kind n | None => false end || Nat.eqb j 0 || Nat.eqb j 8) (seq 0 9) = true)
    by (vm_compute; reflexivity).
  rewrite forallb_forall in ALL. assert (I : In j (seq 0 9)) by (apply in_seq; lia). apply ALL in I. rewrite H in I.
  apply orb_prop in I as [I|I]; [apply orb_prop in I as [I|I]; auto|]; apply Nat.eqb_eq in I; subst; tauto.
Qed.
Lemma attrs_made : forall s i t l, (match s_heap s i with Some n => ntype_eqb (n_type n) t && (if list_eq_dec Nat.eq_dec (n_attrs n) l then true else false) | None => false end) = true ->
  exists n, s_heap s i = Some n /\ n_type n = t /\ n_attrs n = l.
Proof.
  intros s i t l E. destruct (s_heap s i) as [n|]; [|discriminate]. apply andb_prop in E. destruct E as [A B]. apply HeapExec.ntype_eqb_eq in A.
  destruct (list_eq_dec Nat.eq_dec (n_attrs n) l); [|discriminate]. exists n. auto.
Qed.
Lemma label_case : reach 16 label label_client /\ short 16 /\ usable_by label_client 1 /\ usable_by label_client 5 /\
  (exists n, s_heap label 1 = Some n /\ n_type n = ELEMENT /\ n_attrs n = [4]) /\ children (s_heap label) 1 [2; 3; 5] /\
  (exists n, s_heap label 5 = Some n /\ n_type n = ELEMENT /\ n_attrs n = [6]) /\ children (s_heap label) 6 [7] /\
  (forall j n, anc (s_heap label) 1 j -> s_heap label j = Some n -> clonable (n_type n)).
Proof.
  split; [exact label_reach|]. split; [exact label_short|]. split; [split; vm_compute; reflexivity|]. split; [split; vm_compute; reflexivity|].
  split; [apply attrs_made; vm_compute; reflexivity|]. split; [apply kidsn_children; vm_compute; reflexivity|].
  split; [apply attrs_made; vm_compute; reflexivity|]. split; [apply kidsn_children; vm_compute; reflexivity|]. exact label_plain.
Qed.

Definition mild (n : node) : bool := match n_type n with DOCUMENT | ELEMENT | TEXT | COMMENT | PI => true | _ => false end.
Lemma book_mild : forall j n, s_heap book j = Some n -> mild n = true.
Proof.
  intros j n H.
  assert (LT : j < 13). { assert (X : s_nxt book = 13) by (vm_compute; reflexivity). destruct (reach_good _ _ _ book_reach book_short) as [[ch (WL & _)] _].
    pose proof (WL _ _ H). lia. }
  assert (ALL : forallb (fun j => match s_heap book j with Some n => mild n | None => false end) (seq 0 13) = true) by (vm_compute; reflexivity).
  rewrite forallb_forall in ALL. assert (I : In j (seq 0 13)) by (apply in_seq; lia). apply ALL in I. rewrite H in I. auto.
Qed.
Lemma book_editable : forall i, ~ read_only (s_heap book) i.
Proof.
  intros i (n & H & Q). pose proof (book_mild _ _ H) as M. unfold mild in M.
  destruct Q as [Q|[Q|[[Q _]|(_ & a & na & A & Ha & TA)]]]; try (rewrite Q in M; discriminate).
  pose proof (book_mild _ _ Ha) as M'. unfold mild in M'. destruct TA as [Q|Q]; rewrite Q in M'; discriminate.
Qed.

Lemma set_text_case : reach 22 book reader /\ short 22 /\ usable_by reader 1 /\ (exists n, s_heap book 1 = Some n /\ holds_text (n_type n)) /\
  ~ read_only (s_heap book) 1 /\ children (s_heap book) 1 [2; 3; 4; 5; 6].
Proof.
  split; [exact book_reach|]. split; [exact book_short|]. split; [split; vm_compute; reflexivity|].
  split. { destruct (typed book 1 ELEMENT) as (n & H & T); [vm_compute; reflexivity|]. exists n. split; auto. left; auto. }
  split; [apply book_editable|]. apply book_kids.
Qed.

(** *** Processing instructions *)
Lemma pi_set_text : exists k s g p v s', reach k s g /\ short k /\ usable_by g p /\ type_of (s_heap s) p = Some PI /\ ~ read_only (s_heap s) p /\
  set_text_content p v s = Exc HIERARCHY_REQUEST_ERR s'.
Proof.
  destruct (val_exc _ (set_text_content 11 (Some b_ab) book) HIERARCHY_REQUEST_ERR) as (s' & E); [vm_compute; reflexivity|].
  exists 22, book, reader, 11, (Some b_ab), s'. split; [exact book_reach|]. split; [exact book_short|]. split; [split; vm_compute; reflexivity|].
  split; [vm_compute; reflexivity|]. split; [apply book_editable|exact E].
Qed.
Lemma pi_clone : exists k s g i s', reach k s g /\ short k /\ usable_by g i /\ type_of (s_heap s) i = Some PI /\ clone_node i false s = Ok Wild s'.
Proof.
  destruct (val_ok _ (clone_node 11 false book) Wild) as (s' & E); [vm_compute; reflexivity|].
  exists 22, book, reader, 11, s'. split; [exact book_reach|]. split; [exact book_short|]. split; [split; vm_compute; reflexivity|].
  split; [vm_compute; reflexivity|exact E].
Qed.
Lemma pi_inside_clone : exists k s g i c, reach k s g /\ short k /\ usable_by g i /\ type_of (s_heap s) i = Some ELEMENT /\
  children (s_heap s) i [c] /\ type_of (s_heap s) c = Some PI /\ clone_node i true s = Bad BadCast.
Proof.
  exists 22, book, reader, 12, 11. split; [exact book_reach|]. split; [exact book_short|]. split; [split; vm_compute; reflexivity|].
  split; [vm_compute; reflexivity|]. split; [apply book_kids|]. split; [vm_compute; reflexivity|]. apply val_bad. vm_compute. reflexivity.
Qed.

(** *** normalize *)
Definition after {A B} (r : res st A) (f : st -> B) : option B := match r with Ok _ s => Some (f s) | _ => None end.
Lemma after_ok : forall A B (r : res st A) (f : st -> B) a s b, r = Ok a s -> after r f = Some b -> f s = b.
Proof. intros A B r f a s b -> E. inversion E. auto. Qed.

Lemma normalize_text_changed : exists k s g i v v' s0 s' s1, reach k s g /\ short k /\ usable_by g i /\ type_of (s_heap s) i = Some ELEMENT /\
  get_text_content i s = Ok v s0 /\ normalize i s = Ok tt s' /\ get_text_content i s' = Ok v' s1 /\ v' <> v.
Proof.
  destruct (val_ok _ (normalize 1 book) tt) as (s' & E); [vm_compute; reflexivity|].
  pose (v := Some (b_ab ++ b_cd ++ b_he ++ b_Z)%list).
  pose (v' := Some (b_ab ++ (b_ab ++ b_cd ++ b_he) ++ (b_ab ++ b_ab ++ b_cd ++ b_he ++ b_he) ++ b_Z)%list).
  destruct (val_ok _ (get_text_content 1 book) v) as (s0 & S0); [vm_compute; reflexivity|].
  destruct (val_ok _ (get_text_content 1 s') v') as (s1 & S1).
  { apply (after_ok _ _ _ (fun s => val (get_text_content 1 s)) _ _ _ E). vm_compute. reflexivity. }
  exists 22, book, reader, 1, v, v', s0, s', s1. split; [exact book_reach|]. split; [exact book_short|]. split; [split; vm_compute; reflexivity|].
  split; [vm_compute; reflexivity|]. split; [exact S0|]. split; [exact E|]. split; [exact S1|]. vm_compute. discriminate.
Qed.

(** Normalizing 9 leaves its first child 1 alone. *)
Lemma normalize_skips_first : exists k s g i c x y l s', reach k s g /\ short k /\ usable_by g i /\ children (s_heap s) i [c; 10] /\
  normalize i s = Ok tt s' /\ children (s_heap s') c (x :: y :: l) /\ type_of (s_heap s') x = Some TEXT /\ type_of (s_heap s') y = Some TEXT.
Proof.
  destruct (val_ok _ (normalize 9 book) tt) as (s' & E); [vm_compute; reflexivity|].
  exists 22, book, reader, 9, 1, 2, 3, [4; 5; 6], s'. split; [exact book_reach|]. split; [exact book_short|]. split; [split; vm_compute; reflexivity|].
  split; [apply book_kids|]. split; [exact E|].
  split. { apply kidsn_children. apply (after_ok _ _ _ (fun s => kidsn s 1) _ _ _ E). vm_compute. reflexivity. }
  split. { apply (after_ok _ _ _ (fun s => type_of (s_heap s) 2) _ _ _ E). vm_compute. reflexivity. }
  apply (after_ok _ _ _ (fun s => type_of (s_heap s) 3) _ _ _ E). vm_compute. reflexivity.
Qed.

(** The client owns one reference to the text 3; normalizing destroys it. *)
Lemma normalize_frees : exists k s g i x s', reach k s g /\ short k /\ usable_by g i /\ usable_by g x /\ parent_of (s_heap s) x = Some i /\
  normalize i s = Ok tt s' /\ ~ live (s_heap s') x.
Proof.
  destruct (val_ok _ (normalize 1 book) tt) as (s' & E); [vm_compute; reflexivity|].
  exists 22, book, reader, 1, 3, s'. split; [exact book_reach|]. split; [exact book_short|]. split; [split; vm_compute; reflexivity|].
  split; [split; vm_compute; reflexivity|]. split; [vm_compute; reflexivity|]. split; [exact E|].
  intros L. apply livesb_ok in L.
  assert (X : livesb s' 3 = false). { apply (after_ok _ _ _ (fun s => livesb s 3) _ _ _ E). vm_compute. reflexivity. } congruence.
Qed.

(** A tree with no adjacent texts: the element 12 over its instruction. *)
Lemma normalize_case : linked book /\ live (s_heap book) 12 /\ children (s_heap book) 12 [11] /\
  (forall p l, anc (s_heap book) 12 p -> children (s_heap book) p l -> no_adjacent_text (s_heap book) l).
Proof.
  split; [exact book_linked|]. split; [apply livesb_ok; vm_compute; reflexivity|]. split; [apply book_kids|].
  intros p l A C a x y b E (T1 & T2). subst l. pose proof C as (np & Hp & F).
  assert (X : s_nxt book = 13) by (vm_compute; reflexivity). destruct (reach_good _ _ _ book_reach book_short) as [[ch (WL & _)] _]. pose proof (WL _ _ Hp).
  assert (N : p <> 1). { intros ->. revert A. apply (not_anc_step _ _ _ 9); [vm_compute; reflexivity|lia|]. apply not_anc_top; [vm_compute; reflexivity|lia]. }
  assert (ALL : forallb (fun j => match kidsn book j with Some (_ :: _ :: _) => Nat.eqb j 1 || Nat.eqb j 9 | Some _ => true | None => false end) (seq 0 13) = true)
    by (vm_compute; reflexivity).
  rewrite forallb_forall in ALL. assert (I : In p (seq 0 13)) by (apply in_seq; lia). apply ALL in I.
  destruct (kidsn book p) as [k|] eqn:K; [|discriminate]. pose proof (kidsn_det _ _ _ _ K C) as EK.
  destruct k as [|k1 [|k2 k]]; [destruct a; discriminate|destruct a as [|? [|]]; discriminate|].
  apply orb_prop in I as [I|I]; apply Nat.eqb_eq in I; [lia|]. subst p. revert A. apply not_anc_top; [vm_compute; reflexivity|lia].
Qed.

(** *** isEqualNode *)
Lemma equal_crash : exists k s g i, reach k s g /\ short k /\ usable_by g i /\ type_of (s_heap s) i = Some TEXT /\ is_equal i i s = Bad NullDeref.
Proof.
  exists 22, book, reader, 2. split; [exact book_reach|]. split; [exact book_short|]. split; [split; vm_compute; reflexivity|].
  split; [vm_compute; reflexivity|]. apply val_bad. vm_compute. reflexivity.
Qed.
Lemma clone_unequal : exists k s g i j s' s2, reach k s g /\ short k /\ usable_by g i /\ clone_node i true s = Ok (Fresh j) s' /\
  copy_of (s_heap s) (s_heap s') i j /\ is_equal i j s' = Ok false s2.
Proof.
  destruct (ContentClone.clone_deep 22 book reader 9 book_reach book_short) as (j & s' & E & C).
  { split; vm_compute; reflexivity. } { exact book_plain. }
  assert (J : j = 13).
  { assert (X : val (clone_node 9 true book) = Some (inl (inl (Fresh 13)))) by (vm_compute; reflexivity). rewrite E in X. inversion X. auto. }
  subst j.
  destruct (val_ok _ (is_equal 9 13 s') false) as (s2 & E2).
  { apply (after_ok _ _ _ (fun s => val (is_equal 9 13 s)) _ _ _ E). vm_compute. reflexivity. }
  exists 22, book, reader, 9, 13, s', s2. split; [exact book_reach|]. split; [exact book_short|]. split; [split; vm_compute; reflexivity|].
  split; [exact E|]. split; [apply (cd_copy _ _ _ _ C)|exact E2].
Qed.
Lemma equal_case : linked book /\ type_of (s_heap book) 9 = Some ELEMENT /\ type_of (s_heap book) 1 = Some ELEMENT /\ type_of (s_heap book) 2 = Some TEXT.
Proof. split; [exact book_linked|]. repeat split; vm_compute; reflexivity. Qed.
