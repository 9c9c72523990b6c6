(** HTML collections and getElementById. *)
From Coq Require Import List Arith NArith Bool Lia ZifyBool ZifyNat ZifyN.
From Verif Require Import Base HeapModel HeapSpec HeapInv HeapExec HeapTree HeapInsert HeapCreate HistModel TreeSpec
  WalkModel WalkSpec WalkProofs WalkLists.
Import ListNotations.
Local Open Scope dom_scope.

(** ** Heaps that differ in reference counts only *)
Definition links (n : node) :=
  (n_type n, n_parent n, n_first n, n_last n, n_prev n, n_next n, n_attrs n, n_owner n, (n_name n, n_value n)).
Definition like (h h' : heap) : Prop := forall j, option_map links (h' j) = option_map links (h j).

Lemma like_sym : forall h h', like h h' -> like h' h.
Proof. intros h h' K j. symmetry. apply K. Qed.
Lemma like_get : forall h h', like h h' -> forall j n, h j = Some n -> exists n', h' j = Some n' /\ links n' = links n.
Proof.
  intros h h' K j n H. specialize (K j). rewrite H in K. destruct (h' j) as [n'|]; [|discriminate].
  exists n'. split; auto. simpl in K. congruence.
Qed.
Lemma like_live : forall h h', like h h' -> forall j, live h j -> live h' j.
Proof. intros h h' K j (n & H). destruct (like_get _ _ K _ _ H) as (n' & A & _). exists n'; auto. Qed.
Lemma like_fwd : forall h h', like h h' -> forall o l, fwd h o l -> fwd h' o l.
Proof.
  intros h h' K o l F. induction F; [constructor|]. destruct (like_get _ _ K _ _ H) as (n' & A & E).
  econstructor; eauto. unfold links in E. inversion E. congruence.
Qed.
Lemma like_bwd : forall h h', like h h' -> forall o l, bwd h o l -> bwd h' o l.
Proof.
  intros h h' K o l F. induction F; [constructor|]. destruct (like_get _ _ K _ _ H) as (n' & A & E).
  econstructor; eauto. unfold links in E. inversion E. congruence.
Qed.
Lemma like_children : forall h h', like h h' -> forall p l, children h p l -> children h' p l.
Proof.
  intros h h' K p l (n & H & F). destruct (like_get _ _ K _ _ H) as (n' & A & E). exists n'. split; auto.
  unfold links in E. inversion E as [[Q1 Q2 Q3 Q4 Q5 Q6 Q7 Q8 Q9 Q10]]. rewrite Q3. apply (like_fwd _ _ K); auto.
Qed.
Lemma like_anc : forall h h', like h h' -> forall a i, anc h a i -> anc h' a i.
Proof.
  intros h h' K a i A. induction A; [constructor|]. destruct (like_get _ _ K _ _ H) as (n' & B & E).
  econstructor; eauto. unfold links in E. inversion E. congruence.
Qed.
Lemma like_type : forall h h', like h h' -> forall j, type_of h' j = type_of h j.
Proof.
  intros h h' K j. specialize (K j). unfold type_of. destruct (h' j), (h j); simpl in *; try discriminate; auto.
  unfold links in K. inversion K. reflexivity.
Qed.

Lemma like_linked : forall s s', like (s_heap s) (s_heap s') -> s_nxt s' = s_nxt s -> linked s -> linked s'.
Proof.
  intros s s' K NX L. pose proof (like_sym _ _ K) as K'. constructor.
  - intros i Li. rewrite NX. apply (ln_alloc _ L). eapply like_live; eauto.
  - intros p Lp. destruct (ln_lists _ L p) as (l & n & A & F & B & ND & M). { eapply like_live; eauto. }
    exists l. destruct (like_get _ _ K _ _ A) as (n' & A' & E). exists n'. split; auto. unfold links in E.
    inversion E as [[Q1 Q2 Q3 Q4 Q5 Q6 Q7 Q8 Q9 Q10]]. rewrite Q3, Q4.
    split; [apply (like_fwd _ _ K); auto|]. split; [apply (like_bwd _ _ K); auto|]. split; auto.
    intros c. rewrite M. split; intros (nc & C1 & C2 & C3).
    + destruct (like_get _ _ K _ _ C1) as (nc' & D1 & D2). exists nc'. unfold links in D2. inversion D2. repeat split; congruence.
    + destruct (like_get _ _ K' _ _ C1) as (nc' & D1 & D2). exists nc'. unfold links in D2. inversion D2. repeat split; congruence.
  - intros i n p H P. destruct (like_get _ _ K' _ _ H) as (n' & A & E). unfold links in E. inversion E.
    apply (like_live _ _ K). eapply (ln_parent _ L); eauto. congruence.
  - intros i Li. destruct (ln_ends _ L i) as (r & A & B & C). { eapply like_live; eauto. }
    exists r. split; [eapply like_anc; eauto|]. split; [eapply like_live; eauto|].
    destruct B as (n & B). destruct (like_get _ _ K _ _ B) as (n' & B' & E). unfold parent_of in *. rewrite B in C. rewrite B'.
    unfold links in E. inversion E. congruence.
  - intros i n p np H P HP NA. destruct (like_get _ _ K' _ _ H) as (n' & A & E). destruct (like_get _ _ K' _ _ HP) as (np' & A' & E').
    unfold links in E, E'. inversion E. inversion E'. 
    assert (Q : nests (n_type np') (n_type n')); [|congruence]. eapply (ln_nests _ L i n' p np'); auto; congruence.
  - intros i n a H I. destruct (like_get _ _ K' _ _ H) as (n' & A & E). unfold links in E. inversion E.
    rewrite (like_type _ _ K). eapply (ln_attrs _ L i n'); eauto. congruence.
  - intros i n H T. destruct (like_get _ _ K' _ _ H) as (n' & A & E). unfold links in E. inversion E.
    destruct (ln_owner _ L i n' A) as (d & D); [congruence|]. exists d. congruence.
  - intros i n d H T O. destruct (like_get _ _ K' _ _ H) as (n' & A & E). unfold links in E. inversion E.
    apply (like_live _ _ K). apply (ln_element _ L i n' d A); congruence.
Qed.

(** ** Attribute values *)
Section Attrs.
  Variable s : st.
  Hypothesis L : linked s.
  Let h := s_heap s.

  Lemma attr_text_ok : forall l c acc f, fwd h c l -> length l < f ->
    (forall x, In x l -> type_of h x = Some TEXT \/ type_of h x = Some ENTITY_REFERENCE) ->
    (exists vs, Forall2 (fun c v => exists n, h c = Some n /\ n_type n = TEXT /\ no_null (n_value n) = v) l vs /\
                attr_text f c acc s = Ok (acc ++ concat vs) s) \/
    ((exists x, In x l /\ type_of h x = Some ENTITY_REFERENCE) /\ attr_text f c acc s = Exc NOT_SUPPORTED_ERR s).
  Proof.
    induction l as [|x l]; intros c acc f F LF TY; inversion F as [|x0 n l0 H1 H3]; subst.
    - left. exists []. split; [constructor|]. destruct f; simpl; rewrite app_nil_r; reflexivity.
    - destruct f; [simpl in LF; lia|]. cbn [attr_text]. rewrite (bind_ok _ _ _ _ _ _ _ _ (load_ok _ _ _ H1)).
      assert (TX : n_type n = TEXT \/ n_type n = ENTITY_REFERENCE).
      { destruct (TY x) as [Q|Q]; [left; auto| |]; unfold type_of in Q; rewrite H1 in Q; simpl in Q; inversion Q; auto. }
      destruct TX as [TX|TX]; rewrite TX.
      + destruct (IHl (n_next n) (acc ++ no_null (n_value n)) f H3) as [(vs & A & B)|((y & A & B) & C)].
        * simpl in LF; lia. * intros y I. apply TY. right; auto.
        * left. exists (no_null (n_value n) :: vs). split. { constructor; auto. exists n; auto. }
          simpl concat. rewrite app_assoc. exact B.
        * right. split; [exists y; split; [right|]; auto|]. exact C.
      + right. split; [|reflexivity]. exists x. split; [left; auto|]. unfold type_of. rewrite H1. simpl. congruence.
  Qed.

  Lemma attr_says_det : forall a v w, attr_says h a v -> attr_says h a w -> v = w.
  Proof.
    intros a v w [l vs C F] [l' ws C' F']. rewrite (children_det _ _ _ _ C' C) in F'. f_equal.
    clear C C'. revert ws F'. induction F; intros ws F'; inversion F'; subst; auto.
    destruct H as (n & A & B & D). destruct H2 as (m & A' & B' & D'). f_equal; auto. congruence.
  Qed.

  Lemma attr_value_ok : forall a na, h a = Some na -> n_type na = ATTRIBUTE ->
    (exists v, attr_says h a v /\ attr_value a s = Ok v s) \/
    ((forall v, ~ attr_says h a v) /\ attr_value a s = Exc NOT_SUPPORTED_ERR s /\
     exists l x, children h a l /\ In x l /\ type_of h x = Some ENTITY_REFERENCE).
  Proof.
    intros a na H T. destruct (linked_list _ L _ _ H) as (l & CC & C & E1 & E2 & ND).
    assert (CH : children h a l). { exists na. split; auto. rewrite E1. eapply fwd_of_chain; eauto. }
    unfold attr_value. rewrite (bind_ok _ _ _ _ _ _ _ _ (load_ok _ _ _ H)).
    destruct l as [|x l].
    - simpl in E1. rewrite E1. left. exists []. split; [|reflexivity]. apply (says_text h a [] []); auto.
    - simpl in E1. rewrite E1.
      assert (TY : forall y, In y (x :: l) -> type_of h y = Some TEXT \/ type_of h y = Some ENTITY_REFERENCE).
      { intros y I. destruct (chain_in _ _ _ _ C I) as (m & M1 & M2 & M3).
        pose proof (ln_nests _ L _ _ _ _ M1 M3 H M2) as NS. rewrite T in NS. unfold type_of. fold h in M1. rewrite M1. simpl.
        inversion NS as [p c Q1 Q2|c Q|c Q]; subst; simpl in *; [|].
        - exfalso. destruct Q1 as [Q1|[Q1|[Q1|[Q1|[]]]]]; discriminate.
        - destruct Q as [<-|[<-|[]]]; auto. }
      destruct C as [(n & A1 & A2 & A3 & A4) C]. rewrite (bind_ok _ _ _ _ _ _ _ _ (load_ok _ _ _ A1)).
      assert (LOOP : (exists v, attr_says h a v /\ with_fuel (fun f => attr_text f (Some x) []) s = Ok v s) \/
         ((forall v, ~ attr_says h a v) /\ with_fuel (fun f => attr_text f (Some x) []) s = Exc NOT_SUPPORTED_ERR s /\
           exists l x, children h a l /\ In x l /\ type_of h x = Some ENTITY_REFERENCE)).
      { unfold with_fuel. pose proof (children_size s L _ _ CC) as SZ.
        destruct (attr_text_ok (x :: l) (Some x) [] (fuel_of s)) as [(vs & A & B)|((y & A & B) & D)]; auto.
        - destruct CH as (m & M1 & M2). assert (m = na) by (unfold h in *; congruence); subst. rewrite E1 in M2. auto.
        - unfold fuel_of. lia.
        - left. exists (concat vs). split; auto. econstructor; eauto.
        - right. split; [|split; auto]. 2:{ exists (x :: l), y. auto. }
          intros v [l' vs' C' F']. rewrite (children_det _ _ _ _ C' CH) in F'.
          clear - A B F'. induction F'; [destruct A|]. destruct A as [->|A]; auto.
          destruct H as (m & M1 & M2 & _). unfold type_of in B. rewrite M1 in B. simpl in B. congruence. }
      destruct (oid_eqb (n_last na) (Some x)) eqn:EL; [|exact LOOP].
      destruct (n_type n) eqn:TX; try exact LOOP. destruct (n_value n) as [v|] eqn:VX; [|exact LOOP].
      (* the shortcut *)
      apply oid_eqb_eq in EL. rewrite E2 in EL. rewrite last_error_cons in EL.
      destruct (last_error l) eqn:LE.
      { exfalso. inversion EL; subst. inversion ND; subst. apply H2. apply last_error_in; auto. }
      apply last_error_none in LE. subst l. left. exists v. split; [|reflexivity].
      rewrite <- (app_nil_r v). change (v ++ []) with (concat [v]). apply (says_text h a [x] [v]); auto.
      constructor; auto. exists n. rewrite VX. auto.
  Qed.

  Lemma find_attr_ok : forall name l, (forall a, In a l -> live h a) ->
    (exists a, In a l /\ first_named h name l a /\ find_attr name l s = Ok (Some a) s) \/
    ((forall a, ~ first_named h name l a) /\ find_attr name l s = Ok None s).
  Proof.
    induction l as [|x l]; intros LV.
    - right. split; [intros a F; inversion F|reflexivity].
    - destruct (LV x) as (n & H); [left; auto|]. cbn [find_attr]. rewrite (bind_ok _ _ _ _ _ _ _ _ (load_ok _ _ _ H)).
      destruct (isequal (Some name) (n_name n)) eqn:E.
      + left. exists x. split; [left; auto|]. split; [|reflexivity]. econstructor; eauto. apply isequal_iff in E. simpl in E. auto.
      + assert (NE : no_null (n_name n) <> name).
        { intros Q. assert (isequal (Some name) (n_name n) = true) by (apply isequal_iff; simpl; auto). congruence. }
        destruct IHl as [(a & A & B & C)|[A B]]. { intros; apply LV; right; auto. }
        * left. exists a. split; [right; auto|]. split; auto. eapply fn_next; eauto.
        * right. split; auto. intros a F. inversion F; subst; [|eapply A; eauto]. congruence.
  Qed.

  Lemma first_named_det : forall name l a b, first_named h name l a -> first_named h name l b -> a = b.
  Proof. intros name l a b F. revert b. induction F; intros b F'; inversion F'; subst; auto; congruence. Qed.

  Definition raises (i : id) (name : bytes) : Prop :=
    exists n a l x, h i = Some n /\ first_named h name (n_attrs n) a /\ children h a l /\ In x l /\ type_of h x = Some ENTITY_REFERENCE.

  Lemma get_attribute_ok : forall i n name, h i = Some n -> n_type n = ELEMENT ->
    (exists v, has_attr h i name v /\ get_attribute i name s = Ok (Some v) s) \/
    ((forall v, ~ has_attr h i name v) /\ get_attribute i name s = Ok None s) \/
    ((forall v, ~ has_attr h i name v) /\ get_attribute i name s = Exc NOT_SUPPORTED_ERR s /\ raises i name).
  Proof.
    intros i n name H T. unfold get_attribute. rewrite (bind_ok _ _ _ _ _ _ _ _ (load_ok _ _ _ H)).
    assert (LV : forall a, In a (n_attrs n) -> live h a).
    { intros a I. pose proof (ln_attrs _ L _ _ _ H I) as Q. unfold type_of in Q. unfold live, h. destruct (s_heap s a); [eauto|discriminate]. }
    destruct (find_attr_ok name _ LV) as [(a & A & B & C)|[A B]].
    - rewrite (bind_ok _ _ _ _ _ _ _ _ C). pose proof (ln_attrs _ L _ _ _ H A) as TA. unfold type_of in TA.
      destruct (s_heap s a) as [na|] eqn:HA; [|discriminate]. simpl in TA. inversion TA as [TA'].
      destruct (attr_value_ok a na HA TA') as [(v & V1 & V2)|(V1 & V2 & l & x & V3 & V4 & V5)].
      + left. exists v. split. { exists n, a. auto. } rewrite (bind_ok _ _ _ _ _ _ _ _ V2). reflexivity.
      + right. right. split; [|split].
        * intros v (m & b & M1 & M2 & M3 & M4). assert (m = n) by congruence; subst.
          rewrite (first_named_det _ _ _ _ M3 B) in M4. exact (V1 _ M4).
        * unfold bind. rewrite V2. reflexivity.
        * exists n, a, l, x. auto.
    - right. left. split. { intros v (m & b & M1 & M2 & M3 & M4). assert (m = n) by congruence; subst. exact (A _ M3). }
      rewrite (bind_ok _ _ _ _ _ _ _ _ B). reflexivity.
  Qed.

  Lemma get_id_ok : forall i n, h i = Some n -> n_type n = ELEMENT -> get_id i s = get_attribute i id_string s.
  Proof.
    intros i n H T. unfold get_id. rewrite (bind_ok _ _ _ _ _ _ _ _ (load_ok _ _ _ H)).
    destruct (ln_owner _ L _ _ H) as (d & D); [congruence|]. rewrite D.
    destruct (ln_element _ L _ _ _ H T D) as (nd & ND). rewrite (bind_ok _ _ _ _ _ _ _ _ (load_ok _ _ _ ND)). reflexivity.
  Qed.

  Lemma has_attr_det : forall i name v w, has_attr h i name v -> has_attr h i name w -> v = w.
  Proof.
    intros i name v w (n & a & A1 & A2 & A3 & A4) (m & b & B1 & B2 & B3 & B4).
    assert (m = n) by congruence; subst. rewrite (first_named_det _ _ _ _ B3 A3) in B4. eapply attr_says_det; eauto.
  Qed.
End Attrs.

(** ** Collections *)
Section Collection.
  Variable s : st.
  Hypothesis L : linked s.
  Hypothesis CO : counted s.
  Let h := s_heap s.
  Variables (ic : id -> bool) (root : id).

  (** Where the walk starts: not a childless node with siblings after it. *)
  Hypothesis START : exists n, h root = Some n /\ (n_first n <> None \/ n_next n = None).

  Definition inb (i : id) : bool := selb h element_node i && ic i.

  Lemma col_next_all : forall t, tr h t -> HeapTree.root t = root -> forall a x b, pre t = a ++ x :: b -> col_next root x s = Ok (hd_error b) s.
  Proof.
    intros [i ats ks] R E a x b Q. simpl in E. subst i. pose proof (tr_nodup _ L _ R) as ND. simpl in ND, Q. inversion ND; subst.
    destruct (tr_inv _ _ _ _ R) as (n & A & E1 & E2 & C & N1 & F).
    destruct a as [|y a]; simpl in Q; inversion Q; subst.
    - unfold col_next. rewrite (bind_ok _ _ _ _ _ _ _ _ (load_ok _ _ _ A)). rewrite E1.
      destruct ks as [|[? ? ?] ks]; [|reflexivity]. simpl. destruct START as (m & M1 & M2).
      assert (m = n) by congruence; subst. rewrite E1 in M2. destruct M2 as [M2|M2]; [contradiction|]. rewrite M2.
      assert (U : forall p, with_fuel (fun f => climb_to f x x p) s = Ok x s).
      { intros p. unfold with_fuel, fuel_of. replace (2 * s_nxt s + 8) with (S (2 * s_nxt s + 7)) by lia. cbn [climb_to].
        rewrite Nat.eqb_refl. reflexivity. }
      rewrite (bind_ok _ _ _ _ _ _ _ _ (U _)). rewrite Nat.eqb_refl. reflexivity.
    - apply col_next_ok; auto.
      + intros ->. apply H1. rewrite H3. apply in_or_app. right; left; auto.
      + eapply pos_desc; eauto.
  Qed.

  Section Over.
    Variable ds : list id.
    Hypothesis LIVE : forall x, In x ds -> live h x.
    Hypothesis NEXT : forall a x b, ds = a ++ x :: b -> col_next root x s = Ok (hd_error b) s.

    Lemma live_at' : forall a x b, ds = a ++ x :: b -> exists n, h x = Some n.
    Proof. intros a x b E. apply LIVE. rewrite E. apply in_or_app. right; left; auto. Qed.

    Lemma col_length_ok : forall b a f len, ds = a ++ b -> length b <= f -> (len < two32)%N ->
      col_length_loop f ic root (hd_error b) len s = Ok (u32 (len + N.of_nat (length (filter inb b)))) s.
    Proof.
      induction b as [|x b]; intros a f len E F B.
      - simpl. destruct f; simpl; rewrite N.add_0_r; unfold u32, two32 in *; rewrite N.mod_small; auto.
      - destruct f; [simpl in F; lia|]. cbn [col_length_loop hd_error].
        destruct (live_at' _ _ _ E) as [n Hn]. rewrite (bind_ok _ _ _ _ _ _ _ _ (load_ok _ _ _ Hn)).
        rewrite (bind_ok _ _ _ _ _ _ _ _ (NEXT _ _ _ E)).
        assert (SX : inb x = element_node n && ic x) by (unfold inb, selb; rewrite Hn; reflexivity).
        rewrite (IHb (a ++ [x])).
        + cbn [filter]. rewrite SX. destruct (element_node n && ic x); [|reflexivity].
          cbn [length]. f_equal. unfold u32. rewrite N.add_mod_idemp_l by discriminate. f_equal. lia.
        + rewrite <- app_assoc. auto.
        + simpl in F. lia.
        + destruct (element_node n && ic x); auto. unfold u32, two32. apply N.mod_lt. discriminate.
    Qed.

    Lemma col_item_ok : forall b a f idx count, ds = a ++ b -> length b <= f ->
      (count + N.of_nat (length (filter inb b)) < two32)%N -> (count <= idx)%N -> (idx + 1 < two32)%N ->
      col_item_loop f ic root idx (hd_error b) count s = Ok (nth_error (filter inb b) (N.to_nat (idx - count))) s.
    Proof.
      induction b as [|x b]; intros a f idx count E F B C I.
      - destruct f; simpl; destruct (N.to_nat (idx - count)); reflexivity.
      - destruct f; [simpl in F; lia|]. cbn [col_item_loop hd_error].
        destruct (live_at' _ _ _ E) as [n Hn]. rewrite (bind_ok _ _ _ _ _ _ _ _ (load_ok _ _ _ Hn)).
        assert (SX : inb x = element_node n && ic x) by (unfold inb, selb; rewrite Hn; reflexivity).
        cbn [filter] in *. rewrite SX in *.
        assert (UI : u32 (idx + 1) = (idx + 1)%N) by (unfold u32, two32 in *; apply N.mod_small; auto).
        destruct (element_node n && ic x).
        + cbn [length] in B. assert (UC : u32 (count + 1) = (count + 1)%N) by (unfold u32, two32 in *; apply N.mod_small; lia).
          cbv zeta. rewrite UI, UC. destruct (N.eqb_spec (count + 1) (idx + 1)) as [Q|Q].
          * replace (N.to_nat (idx - count)) with 0 by lia. reflexivity.
          * rewrite (bind_ok _ _ _ _ _ _ _ _ (NEXT _ _ _ E)). rewrite (IHb (a ++ [x])).
            all: try (rewrite <- app_assoc; auto; fail). all: try (simpl in F; lia). all: try lia.
            replace (N.to_nat (idx - count)) with (S (N.to_nat (idx - (count + 1)))) by lia. reflexivity.
        + cbv zeta. rewrite UI. destruct (N.eqb_spec count (idx + 1)) as [Q|Q]; [lia|].
          rewrite (bind_ok _ _ _ _ _ _ _ _ (NEXT _ _ _ E)). apply (IHb (a ++ [x])); auto.
          * rewrite <- app_assoc. auto.
          * simpl in F. lia.
    Qed.

    Definition matches (name : bytes) (i : id) : Prop :=
      type_of h i = Some ELEMENT /\ ic i = true /\ (has_attr h i id_string name \/ has_attr h i name_string name).

    Lemma named_ok : plain_attributes h -> forall i n name, h i = Some n -> n_type n = ELEMENT ->
      exists b, named i name s = Ok b s /\ (b = true <-> has_attr h i id_string name \/ has_attr h i name_string name).
    Proof.
      intros PA i n name H T. unfold named.
      assert (NR : forall nm, ~ raises s i nm).
      { intros nm (m & a & l & x & M1 & M2 & M3 & M4 & M5). assert (m = n) by (unfold h in *; congruence); subst.
        assert (IA : In a (n_attrs n)). { clear - M2. induction M2; [left|right]; auto. }
        pose proof (ln_attrs _ L _ _ _ H IA) as TA. unfold type_of in TA. destruct (s_heap s a) as [na|] eqn:HA; [|discriminate].
        simpl in TA. inversion TA as [TA']. pose proof (PA _ _ _ _ HA TA' M3 M4). unfold h in *. congruence. }
      assert (V : forall nm, exists o, get_attribute i nm s = Ok o s /\
         (match o with Some b => isequal (Some name) (Some b) | None => false end = true <-> has_attr h i nm name)).
      { intros nm. destruct (get_attribute_ok s L i n nm H T) as [(v & V1 & V2)|[[V1 V2]|(_ & _ & V3)]].
        - exists (Some v). split; auto. rewrite isequal_iff. simpl. split.
          + intros ->. auto. + intros Q. eapply (has_attr_det s); eauto.
        - exists None. split; auto. split; [discriminate|]. intros Q. destruct (V1 _ Q).
        - destruct (NR _ V3). }
      destruct (V id_string) as (o1 & G1 & B1). destruct (V name_string) as (o2 & G2 & B2).
      assert (GI : get_id i s = Ok o1 s) by (rewrite (get_id_ok s L i n H T); auto).
      rewrite (bind_ok _ _ _ _ _ _ _ _ GI).
      destruct (match o1 with Some b => isequal (Some name) (Some b) | None => false end).
      - exists true. split; [reflexivity|]. split; auto. intros _. left. apply B1; auto.
      - rewrite (bind_ok _ _ _ _ _ _ _ _ G2). eexists. split; [reflexivity|]. rewrite B2. split; auto.
        intros [Q|Q]; auto. apply B1 in Q. discriminate.
    Qed.

    Lemma col_named_ok : plain_attributes h -> forall name b a f, ds = a ++ b -> length b <= f ->
      exists o, col_named_loop f ic root name (hd_error b) s = Ok o s /\ first_that (matches name) b o.
    Proof.
      intros PA name. induction b as [|x b]; intros a f E F.
      - exists None. split; [destruct f; reflexivity|constructor].
      - destruct f; [simpl in F; lia|]. cbn [col_named_loop hd_error].
        destruct (live_at' _ _ _ E) as [n Hn]. rewrite (bind_ok _ _ _ _ _ _ _ _ (load_ok _ _ _ Hn)).
        assert (TY : type_of h x = Some (n_type n)) by (unfold type_of; rewrite Hn; reflexivity).
        assert (B : exists v, (if element_node n && ic x then named x name else ret false) s = Ok v s /\ (v = true <-> matches name x)).
        { unfold matches. rewrite TY. destruct (element_node n) eqn:EN; simpl.
          - apply element_iff in EN. destruct (ic x) eqn:IX.
            + destruct (named_ok PA x n name Hn EN) as (v & V1 & V2). exists v. split; auto. rewrite V2. split; [|tauto].
              intros Q. split; [congruence|auto].
            + exists false. split; [reflexivity|]. split; [discriminate|]. intros (_ & Q & _). discriminate.
          - exists false. split; [reflexivity|]. split; [discriminate|]. intros (Q & _). exfalso.
            assert (element_node n = true) by (apply element_iff; congruence). congruence. }
        destruct B as (v & V1 & V2). rewrite (bind_ok _ _ _ _ _ _ _ _ V1). destruct v.
        + exists (Some x). split; [reflexivity|]. constructor. apply V2; auto.
        + rewrite (bind_ok _ _ _ _ _ _ _ _ (NEXT _ _ _ E)). destruct (IHb (a ++ [x]) f) as (o & O1 & O2).
          * rewrite <- app_assoc. auto. * simpl in F; lia.
          * exists o. split; auto. apply ft_next; auto. intros Q. apply V2 in Q. discriminate.
    Qed.
  End Over.

  Lemma order_tree : forall l, order h root l -> exists t, tr h t /\ HeapTree.root t = root /\ l = pre t /\ length l <= s_nxt s.
  Proof.
    intros l O. assert (LR : live h root) by (destruct START as (n & A & _); exists n; auto).
    destruct (linked_tree _ L _ LR) as (t & R & E). exists t. split; auto. split; auto.
    assert (l = pre t). { apply (order_pre _ _ R). rewrite E. auto. }
    split; auto. subst. apply (tr_size _ L); auto.
  Qed.

  Theorem collection_list : forall l k, order h root l -> (N.of_nat (length l) < two32)%N ->
    picks (fun i => type_of h i = Some ELEMENT /\ ic i = true) l k ->
    col_length ic root s = Ok (N.of_nat (length k)) s /\
    (forall index, (index + 1 < two32)%N -> exists s',
       col_item ic root index s = Ok (nth_error k (N.to_nat index)) s' /\ answered s (nth_error k (N.to_nat index)) s') /\
    (plain_attributes h -> forall name, exists o s',
       col_named ic root name s = Ok o s' /\ answered s o s' /\ first_that (fun i => has_attr h i id_string name \/ has_attr h i name_string name) k o).
  Proof.
    intros l k O B P. destruct (order_tree _ O) as (t & R & E & -> & SZ).
    assert (LV : forall x, In x (pre t) -> live h x) by (intros; eapply tr_live; eauto).
    pose proof (col_next_all t R E) as NX.
    assert (HD : hd_error (pre t) = Some root) by (destruct t; simpl in *; congruence).
    assert (KE : k = filter inb (pre t)).
    { apply (picks_filter _ (fun i => type_of h i = Some ELEMENT /\ ic i = true) inb); auto.
      intros x I. destruct (LV _ I) as (n & H). unfold inb, selb, type_of. rewrite H, andb_true_iff, element_iff. simpl.
      split; intros [Q1 Q2]; split; congruence. }
    assert (KL : length k <= length (pre t)).
    { rewrite KE. clear. induction (pre t); simpl; auto. destruct (inb a); simpl; lia. }
    split; [|split].
    - unfold col_length, with_fuel. rewrite <- HD. rewrite (col_length_ok (pre t) LV NX (pre t) []); auto.
      + rewrite <- KE. simpl. f_equal. unfold u32, two32 in *. apply N.mod_small. lia.
      + unfold fuel_of; lia.
      + reflexivity.
    - intros index BI.
      assert (Q : with_fuel (fun f => col_item_loop f ic root index (Some root) 0) s = Ok (nth_error k (N.to_nat index)) s).
      { unfold with_fuel. rewrite <- HD. rewrite (col_item_ok (pre t) LV NX (pre t) []); auto; rewrite <- ?KE.
        - rewrite N.sub_0_r. reflexivity.
        - unfold fuel_of; lia.
        - lia.
        - lia. }
      unfold col_item. rewrite (bind_ok _ _ _ _ _ _ _ _ Q). apply ref_opt_answered; auto.
      intros i I. apply LV. apply nth_error_In in I. rewrite KE in I. apply filter_In in I. tauto.
    - intros PA name. destruct (col_named_ok (pre t) LV NX PA name (pre t) [] (fuel_of s)) as (o & O1 & O2); auto.
      { unfold fuel_of; lia. }
      assert (FT : first_that (fun i => has_attr h i id_string name \/ has_attr h i name_string name) k o).
      { clear - O2 P. unfold matches in O2. revert k P. induction O2; intros k P.
        - inversion P; constructor.
        - destruct H as (H1 & H2 & H3). inversion P; subst; [|tauto]. constructor; auto.
        - inversion P; subst; auto. apply ft_next; auto. intros Q. apply H. tauto. }
      assert (LO : forall i, o = Some i -> live h i).
      { intros i ->. clear - O2 LV. induction (pre t); inversion O2; subst; auto. apply LV; left; auto.
        apply IHl; auto. intros; apply LV; right; auto. }
      destruct (ref_opt_answered s o CO LO) as (s' & R1 & R2). exists o, s'. split; [|auto].
      assert (Q : with_fuel (fun f => col_named_loop f ic root name (Some root)) s = Ok o s)
        by (unfold with_fuel; rewrite <- HD; auto).
      unfold col_named. rewrite (bind_ok _ _ _ _ _ _ _ _ Q). exact R1.
  Qed.
End Collection.
