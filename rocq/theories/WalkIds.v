(** getElementById. *)
From Coq Require Import List Arith NArith Bool Lia ZifyBool ZifyNat ZifyN.
From Verif Require Import Base HeapModel HeapSpec HeapInv HeapExec HeapTree HeapInsert HeapCreate HistModel TreeSpec
  WalkModel WalkSpec WalkProofs WalkLists WalkFinds.
Import ListNotations.
Local Open Scope dom_scope.

Lemma like_attr_says : forall h h', like h h' -> forall a v, attr_says h a v -> attr_says h' a v.
Proof.
  intros h h' K a v [l vs C F]. apply (says_text h' a l vs). { eapply like_children; eauto. }
  clear C. induction F; constructor; auto. destruct H as (n & A & B & D).
  destruct (like_get _ _ K _ _ A) as (n' & A' & E). unfold links in E. inversion E. exists n'. repeat split; congruence.
Qed.
Lemma like_has_attr : forall h h', like h h' -> forall i name v, has_attr h i name v -> has_attr h' i name v.
Proof.
  intros h h' K i name v (n & a & A1 & A2 & A3 & A4). destruct (like_get _ _ K _ _ A1) as (n' & B1 & E).
  unfold links in E. inversion E as [[Q1 Q2 Q3 Q4 Q5 Q6 Q7 Q8 Q9 Q10]]. exists n', a. split; auto. split; [congruence|].
  split; [|eapply like_attr_says; eauto]. rewrite Q7. clear - A3 K. induction A3.
  - destruct (like_get _ _ K _ _ H) as (m & M1 & M2). unfold links in M2. inversion M2. econstructor; eauto. congruence.
  - destruct (like_get _ _ K _ _ H) as (m & M1 & M2). unfold links in M2. inversion M2. eapply fn_next; eauto. congruence.
Qed.

Lemma first_that_skip : forall (A : Type) (P : A -> Prop) l l' o, (forall x, In x l -> ~ P x) ->
  (first_that P l' o <-> first_that P (l ++ l') o).
Proof.
  intros A P l l' o H. induction l as [|x l]; simpl; [tauto|].
  rewrite IHl by (intros; apply H; right; auto). split; intros F.
  - apply ft_next; auto. apply H; left; auto.
  - inversion F; subst; auto. destruct (H x); [left|]; auto.
Qed.
Lemma first_that_rest : forall (A : Type) (P : A -> Prop) l l' o, (forall x, In x l' -> ~ P x) ->
  first_that P l o -> first_that P (l ++ l') o.
Proof.
  intros A P l l' o H F. induction F; simpl.
  - rewrite <- (app_nil_r l'). apply first_that_skip; auto. constructor.
  - constructor; auto.
  - apply ft_next; auto.
Qed.
Lemma first_that_iff : forall (A : Type) (P Q : A -> Prop) l o, (forall x, P x <-> Q x) -> first_that P l o -> first_that Q l o.
Proof. intros A P Q l o H F. induction F; [constructor|constructor; apply H; auto|apply ft_next; auto]. rewrite <- H. auto. Qed.
Lemma first_that_in : forall (A : Type) (P : A -> Prop) l x, first_that P l (Some x) -> In x l /\ P x.
Proof. induction l; intros x F; inversion F; subst; [split; [left|]; auto|]. destruct (IHl _ H3); split; auto. right; auto. Qed.

Section Find.
  Variable s : st.
  Hypothesis L : linked s.
  Let h := s_heap s.

  Lemma first_element_ok : forall l c f, fwd h c l -> length l < f ->
    exists o, first_element f c s = Ok o s /\ first_that (fun i => type_of h i = Some ELEMENT) l o.
  Proof.
    induction l as [|x l]; intros c f F LF; inversion F as [|x0 n l0 H1 H3]; subst.
    - exists None. split; [destruct f; reflexivity|constructor].
    - destruct f; [simpl in LF; lia|]. cbn [first_element]. rewrite (bind_ok _ _ _ _ _ _ _ _ (load_ok _ _ _ H1)).
      destruct (element_node n) eqn:E.
      + exists (Some x). split; [reflexivity|]. constructor. apply element_iff in E. unfold type_of. rewrite H1. simpl. congruence.
      + destruct (IHl (n_next n) f H3) as (o & A & B); [simpl in LF; lia|]. exists o. split; auto. apply ft_next; auto.
        unfold type_of. rewrite H1. simpl. intros Q. inversion Q as [Q']. apply element_iff in Q'. congruence.
  Qed.

  Variable r : id.
  Variable want : option bytes.
  Definition has_id (i : id) : Prop := has_attr h i id_string (no_null want).

  Lemma find_loop_ok : forall ds, (forall x, In x ds -> live h x) ->
    (forall a x b n, ds = a ++ x :: b -> h x = Some n ->
       match n_first n with Some y => ret (Some y) | None => with_fuel (fun g => find_up g r x) end s = Ok (hd_error b) s) ->
    forall b a f, ds = a ++ b -> length b <= f ->
    exists o, find_loop f r want (hd_error b) s = Ok o s /\ first_that has_id b o.
  Proof.
    intros ds LIVE NEXT. induction b as [|x b]; intros a f E F.
    - exists None. split; [destruct f; reflexivity|constructor].
    - destruct f; [simpl in F; lia|]. cbn [find_loop hd_error].
      destruct (LIVE x) as (n & Hn). { rewrite E. apply in_or_app. right; left; auto. }
      rewrite (bind_ok _ _ _ _ _ _ _ _ (load_ok _ _ _ Hn)).
      assert (B : exists v, (if element_node n then r <- try (get_id x) ;;
                       ret match r with inl (Some b) => isequal (Some b) want | _ => false end else ret false) s = Ok v s /\
        (v = true <-> has_id x)).
      { destruct (element_node n) eqn:EN.
        - apply element_iff in EN. pose proof (get_id_ok s L x n Hn EN) as G.
          destruct (get_attribute_ok s L x n id_string Hn EN) as [(v & V1 & V2)|[[V1 V2]|(V1 & V2 & _)]].
          + exists (isequal (Some v) want). split. { unfold bind, try. rewrite G, V2. reflexivity. }
            rewrite isequal_iff. simpl. unfold has_id. split; [intros <-; auto|]. intros Q. eapply (has_attr_det s); eauto.
          + exists false. split. { unfold bind, try. rewrite G, V2. reflexivity. }
            split; [discriminate|]. intros Q. destruct (V1 _ Q).
          + exists false. split. { unfold bind, try. rewrite G, V2. reflexivity. }
            split; [discriminate|]. intros Q. destruct (V1 _ Q).
        - exists false. split; [reflexivity|]. split; [discriminate|]. intros (m & a' & M1 & M2 & _).
          assert (m = n) by (unfold h in *; congruence); subst. apply element_iff in M2. congruence. }
      destruct B as (v & V1 & V2). rewrite (bind_ok _ _ _ _ _ _ _ _ V1). destruct v.
      + exists (Some x). split; [reflexivity|]. constructor. apply V2; auto.
      + rewrite (bind_ok _ _ _ _ _ _ _ _ (NEXT _ _ _ _ E Hn)). destruct (IHb (a ++ [x]) f) as (o & O1 & O2).
        * rewrite <- app_assoc. auto.
        * simpl in F; lia.
        * exists o. split; auto. apply ft_next; auto. intros Q. apply V2 in Q. discriminate.
  Qed.

  Variables (d : id) (nd : node).
  Hypothesis DOC : h d = Some nd.
  Hypothesis TD : n_type nd = DOCUMENT.
  Hypothesis ND : n_next nd = None.
  Hypothesis ONE : at_most_one h d ELEMENT.

  (** Children of a document other than elements are leaves. *)
  Lemma doc_kid_leaf : forall t n, tr h t -> h (root t) = Some n -> n_parent n = Some d -> n_type n <> ATTRIBUTE -> n_type n <> ELEMENT ->
    pre t = [root t].
  Proof.
    intros [i ats ks] n R H P NA NE. simpl in H. destruct (tr_inv _ _ _ _ R) as (m & A & E1 & E2 & C & N1 & F).
    destruct ks as [|t2 ks]; [reflexivity|]. exfalso. assert (m = n) by congruence; subst.
    cbn [map chain] in C. destruct C as [(n2 & A1 & A2 & A3 & A4) _].
    pose proof (ln_nests _ L _ _ _ _ H P DOC NA) as Q1. pose proof (ln_nests _ L _ _ _ _ A1 A3 H A2) as Q2. rewrite TD in Q1.
    inversion Q1 as [p c X1 X2|c X|c X]; subst.
    - destruct X1 as [X1|[X1|[X1|[X1|[]]]]]; discriminate.
    - destruct X as [X|[X|[X|[X|[]]]]]; try congruence; rewrite <- X in Q2; inversion Q2 as [p' c' Y1 Y2|c' Y|c' Y]; subst;
        destruct Y1 as [Y1|[Y1|[Y1|[Y1|[]]]]]; discriminate.
  Qed.

  Lemma doc_no_parent : n_parent nd = None.
  Proof.
    destruct (n_parent nd) as [p|] eqn:P; auto. exfalso.
    destruct (ln_parent _ L _ _ _ DOC P) as (np & HP).
    assert (Q : nests (n_type np) (n_type nd)) by (eapply (ln_nests _ L d nd p np); eauto; congruence).
    rewrite TD in Q. inversion Q as [p' c' Y1 Y2|c' Y|c' Y]; subst.
    - destruct Y2 as [Y2|[Y2|[Y2|[Y2|[Y2|[Y2|[]]]]]]]; discriminate.
    - destruct Y as [Y|[Y|[]]]; discriminate.
    - destruct Y as [Y|[Y|[Y|[Y|[]]]]]; discriminate.
  Qed.

  Lemma find_up_doc : forall f, 0 < f -> r <> d -> find_up f r d s = Ok None s.
  Proof.
    intros f LF NE. destruct f; [lia|]. cbn [find_up]. rewrite (bind_ok _ _ _ _ _ _ _ _ (load_ok _ _ _ DOC)).
    rewrite ND, doc_no_parent. reflexivity.
  Qed.

  Lemma not_element : forall j, type_of h j <> Some ELEMENT -> ~ has_id j.
  Proof.
    intros j NE (n & a & A1 & A2 & _). apply NE. unfold type_of. rewrite A1. simpl. congruence.
  Qed.

  (** What the search over the subtree of the document's child answers. *)
  Lemma find_found : forall t ats ks1 ks2, tr h (T d ats (ks1 ++ t :: ks2)) -> root t = r -> type_of h r = Some ELEMENT ->
    exists o, with_fuel (fun f => find_loop f r want (Some r)) s = Ok o s /\
      first_that has_id (flat_map pre (ks1 ++ t :: ks2)) o.
  Proof.
    intros t ats ks1 ks2 R ER TR. destruct (tr_inv _ _ _ _ R) as (m & A & E1 & E2 & C & N1 & F).
    assert (m = nd) by congruence; subst m.
    assert (INK : forall t', In t' (ks1 ++ t :: ks2) -> exists n', h (root t') = Some n' /\ n_type n' <> ATTRIBUTE /\ n_parent n' = Some d).
    { intros t' I. apply (chain_in h d (map root (ks1 ++ t :: ks2))); auto. apply in_map; auto. }
    assert (CH : children h d (map root (ks1 ++ t :: ks2))) by (eapply tr_children; eauto).
    assert (INR : In t (ks1 ++ t :: ks2)) by (apply in_or_app; right; left; auto).
    (* the other children are leaves and no elements *)
    assert (OTHER : forall t', In t' ks1 \/ In t' ks2 -> pre t' = [root t'] /\ type_of h (root t') <> Some ELEMENT).
    { intros t' I. assert (I' : In t' (ks1 ++ t :: ks2)) by (apply in_or_app; simpl; tauto).
      destruct (INK _ I') as (n' & B1 & B2 & B3).
      assert (NR : root t' <> r).
      { intros Q. rewrite map_app in N1. cbn [map] in N1. apply NoDup_remove_2 in N1. apply N1. rewrite ER, <- Q, in_app_iff.
        destruct I as [I|I]; [left|right]; apply in_map; auto. }
      assert (NE : type_of h (root t') <> Some ELEMENT).
      { intros Q. apply NR. apply (ONE _ _ _ CH); auto; try (apply in_map; auto; fail). rewrite <- ER. apply in_map; auto. }
      split; auto. rewrite Forall_forall in F. apply (doc_kid_leaf t' n'); auto.
      unfold type_of in NE. rewrite B1 in NE. simpl in NE. congruence. }
    assert (FT : tr h t) by (rewrite Forall_forall in F; auto).
    assert (NPRE : forall ks, (forall t', In t' ks -> In t' ks1 \/ In t' ks2) -> forall j, In j (flat_map pre ks) -> ~ has_id j).
    { intros ks SUB j I. rewrite in_flat_map in I. destruct I as (t' & I1 & I2). destruct (OTHER t' (SUB _ I1)) as [Q1 Q2].
      rewrite Q1 in I2. destruct I2 as [<-|[]]. apply not_element; auto. }
    assert (GOAL : exists ks2', (ks2' = [] \/ ks2' = ks2) /\ exists o, with_fuel (fun f => find_loop f r want (Some r)) s = Ok o s /\
        first_that has_id (pre t ++ flat_map pre ks2') o).
    { pose proof (tr_size _ L _ R) as SZ. cbn [pre] in SZ. rewrite flat_map_app in SZ. cbn [flat_map length] in SZ. rewrite !app_length in SZ.
      pose proof (tr_nodup _ L _ R) as NDP.
      destruct t as [i atr kr]. simpl in ER. subst i. destruct (tr_inv _ _ _ _ FT) as (nr & R1 & R2 & R3 & R4 & R5 & R6).
      destruct (INK _ INR) as (nr' & R7 & R8 & R9). simpl in R7. assert (nr' = nr) by congruence; subst nr'.
      assert (RD : r <> d). { intros Q. rewrite Q in R1. pose proof doc_no_parent. assert (nr = nd) by congruence. subst nr. congruence. }
      destruct kr as [|k0 kr].
      - (* childless: on to the siblings *)
        exists ks2. split; auto. unfold with_fuel.
        assert (HD : Some r = hd_error (pre (T r atr []) ++ flat_map pre ks2)) by reflexivity. rewrite HD.
        apply (find_loop_ok (pre (T r atr []) ++ flat_map pre ks2)) with (a := []); auto.
        + intros x I. apply in_app_or in I. destruct I as [I|I]; [eapply tr_live; eauto|].
          rewrite in_flat_map in I. destruct I as (t' & I1 & I2). rewrite Forall_forall in F.
          apply (tr_live h t'); auto. apply F. apply in_or_app. right; right; auto.
        + assert (PE : pre (T r atr []) ++ flat_map pre ks2 = map root (T r atr [] :: ks2)).
          { simpl. f_equal. clear - OTHER. induction ks2 as [|t' ks2]; auto. simpl. rewrite (proj1 (OTHER t' (or_intror (or_introl eq_refl)))).
            simpl. f_equal. apply IHks2. intros t2 [I|I]; apply OTHER; simpl; auto. }
          rewrite PE. intros a x b n Q Hx.
          assert (CX : exists l1, map root (ks1 ++ T r atr [] :: ks2) = l1 ++ x :: b).
          { exists (map root ks1 ++ a). rewrite map_app, Q, <- app_assoc. reflexivity. }
          destruct CX as (l1 & CX). rewrite CX in C.
          assert (NXT : n_next n = hd_error b /\ n_parent n = Some d /\ n_type n <> ATTRIBUTE).
          { clear - C Hx. induction l1 as [|y l1]; simpl in C.
            - destruct C as [(n' & B1 & B2 & B3 & B4) _]. assert (n' = n) by congruence; subst. auto.
            - destruct C as [_ C]. auto. }
          destruct NXT as (NX & PX & TX).
          assert (LEAF : n_first n = None).
          { assert (IX : In x (map root (T r atr [] :: ks2))) by (rewrite Q; apply in_or_app; right; left; auto).
            simpl in IX. destruct IX as [<-|IX]. { assert (n = nr) by congruence; subst. exact R2. }
            rewrite in_map_iff in IX. destruct IX as ([j aj kj] & <- & I2). simpl in Hx.
            destruct (OTHER _ (or_intror I2)) as [Q1 _]. rewrite Forall_forall in F.
            assert (TJ : tr h (T j aj kj)) by (apply F; apply in_or_app; right; right; auto).
            destruct (tr_inv _ _ _ _ TJ) as (m' & M1 & M2 & _). assert (m' = n) by congruence; subst. rewrite M2.
            destruct kj as [|[? ? ?] ?]; auto. simpl in Q1. discriminate. }
          rewrite LEAF. unfold with_fuel, fuel_of. replace (2 * s_nxt s + 8) with (S (2 * s_nxt s + 7)) by lia. cbn [find_up].
          rewrite (bind_ok _ _ _ _ _ _ _ _ (load_ok _ _ _ Hx)). rewrite NX. destruct b as [|y b]; [|reflexivity].
          simpl. rewrite PX. rewrite oid_eqb_some. destruct (Nat.eqb_spec d r); [congruence|]. apply find_up_doc; auto. lia.
        + rewrite app_length. unfold fuel_of. lia.
      - exists []. split; auto. simpl flat_map. rewrite app_nil_r. unfold with_fuel.
        assert (HD : Some r = hd_error (pre (T r atr (k0 :: kr)))) by reflexivity. rewrite HD.
        apply (find_loop_ok (pre (T r atr (k0 :: kr)))) with (a := []); auto.
        + intros x I. eapply tr_live; eauto.
        + intros a x b n Q Hx. pose proof (tr_nodup _ L _ FT) as NDT. cbn [pre] in Q, NDT. inversion NDT; subst.
          destruct a as [|y a]; simpl in Q; inversion Q; subst.
          * assert (n = nr) by congruence; subst. rewrite R2. destruct k0. reflexivity.
          * assert (ST : steps h y x (hd_error b)).
            { apply (pos_desc h y atr (k0 :: kr) a x b); auto. }
            destruct ST as (n' & B1 & B2 & B3). assert (n' = n) by congruence; subst n'.
            destruct (n_first n). { subst. rewrite <- B3. reflexivity. }
            destruct (parent_chain s L _ _ Hx) as (l & AC & LC). unfold with_fuel.
            apply (find_up_exits s y x _ B3 n l); auto. unfold fuel_of; lia.
        + unfold fuel_of. lia. }
    destruct GOAL as (ks2' & KE & o & O1 & O2). exists o. split; auto.
    rewrite flat_map_app. cbn [flat_map]. apply first_that_skip. { apply NPRE; auto. }
    destruct KE as [->| ->]; auto. simpl in O2. rewrite app_nil_r in O2. apply first_that_rest; auto. apply NPRE; auto.
  Qed.
End Find.

Lemma unref_back : forall s r n d, s_heap s r = Some n -> (n_ref n + 1 < two32)%N -> n_parent n = Some d ->
  exists s', node_unref r (withh s (hmod (s_heap s) r ref_up)) = Ok tt s' /\
    s_nxt s' = s_nxt s /\ s_log s' = s_log s /\ forall j, s_heap s' j = s_heap s j.
Proof.
  intros s r n d H B P.
  assert (H1 : s_heap (withh s (hmod (s_heap s) r ref_up)) r = Some (ref_up n)).
  { change (hmod (s_heap s) r ref_up r = Some (ref_up n)). rewrite (hmod_get _ _ _ _ _ H), Nat.eqb_refl. reflexivity. }
  set (s1 := withh s (hmod (s_heap s) r ref_up)) in *.
  set (down := fun n => set_ref (u32 (n_ref n + (two32 - 1))) n).
  exists (withh s1 (hmod (s_heap s1) r down)).
  assert (E : down (ref_up n) = n).
  { assert (Q : u32 (u32 (n_ref n + 1) + (two32 - 1)) = n_ref n).
    { unfold u32, two32 in *. rewrite (N.mod_small (n_ref n + 1)) by lia.
      symmetry. apply (N.mod_unique _ _ 1); lia. }
    unfold down, ref_up. destruct n as [? ? ? ? ? ? ? ? ? ? ? rf ? ? ? ? ?]. cbn in Q. unfold set_ref. cbn. rewrite Q. reflexivity. }
  assert (H2 : s_heap (withh s1 (hmod (s_heap s1) r down)) r = Some n).
  { change (hmod (s_heap s1) r down r = Some n). rewrite (hmod_get _ _ _ _ _ H1), Nat.eqb_refl, E. reflexivity. }
  split; [|split; [reflexivity|split; [reflexivity|]]].
  - unfold node_unref. rewrite (bind_ok _ _ _ _ _ _ _ _ (upd_ok _ _ _ _ H1)). fold down.
    rewrite (bind_ok _ _ _ _ _ _ _ _ (load_ok _ _ _ H2)). destruct (N.eqb (n_ref n) 0); [|reflexivity]. unfold when.
    unfold try_destroy, try_destroy_with.
    unfold with_fuel. rewrite (bind_ok _ _ _ _ _ _ _ _ (load_ok _ _ _ H2)). rewrite P. reflexivity.
  - intros j. change (hmod (s_heap s1) r down j = s_heap s j). destruct (Nat.eq_dec j r) as [->|NE].
    + rewrite H. exact H2.
    + rewrite hmod_other by auto. change (hmod (s_heap s) r ref_up j = s_heap s j). rewrite hmod_other; auto.
Qed.

Theorem by_id : forall s, linked s -> counted s -> forall d nd want l,
  s_heap s d = Some nd -> n_type nd = DOCUMENT -> n_next nd = None -> at_most_one (s_heap s) d ELEMENT ->
  order (s_heap s) d (d :: l) ->
  exists o s', get_element_by_id d want s = Ok o s' /\ answered s o s' /\
    first_that (fun i => has_attr (s_heap s) i id_string (no_null want)) l o.
Proof.
  intros s L CO d nd want l H TD NX ONE O.
  destruct (linked_tree _ L d) as ([i ats ks] & R & E); [exists nd; auto|]. simpl in E. subst i.
  assert (EL : l = flat_map pre ks). { pose proof (order_pre _ _ R _ O) as Q. simpl in Q. congruence. }
  destruct (tr_inv _ _ _ _ R) as (m & A & E1 & E2 & C & N1 & F). assert (m = nd) by congruence; subst m.
  destruct (linked_list _ L _ _ H) as (lc & CC & _ & _ & _ & _).
  pose proof (tr_children _ _ _ _ R) as CH.
  assert (lc = map root ks).
  { destruct CC as (n' & B1 & B2 & _). apply (children_det (s_heap s) d); auto. exists n'; auto. }
  subst lc. pose proof (children_size s L _ _ CC) as SZ.
  unfold get_element_by_id, document_element.
  destruct (first_element_ok s (map root ks) (n_first nd) (fuel_of s)) as (o1 & O1 & O2).
  { destruct CH as (m & M1 & M2). assert (m = nd) by congruence; subst; auto. }
  { unfold fuel_of; lia. }
  assert (DE : bind (load d) (fun n => bind (with_fuel (fun f => first_element f (n_first n))) ref_opt) s = ref_opt o1 s).
  { rewrite (bind_ok _ _ _ _ _ _ _ _ (load_ok _ _ _ H)). rewrite (bind_ok _ _ _ _ _ _ _ _ (O1 : with_fuel _ s = _)). reflexivity. }
  destruct o1 as [r|].
  - (* there is a root element *)
    destruct (first_that_in _ _ _ _ O2) as [IR TR]. rewrite in_map_iff in IR. destruct IR as (t & ER & IT).
    destruct (in_split _ _ IT) as (ks1 & ks2 & KS).
    assert (PR : exists nr, s_heap s r = Some nr /\ n_type nr <> ATTRIBUTE /\ n_parent nr = Some d).
    { apply (chain_in (s_heap s) d (map root ks)); auto. rewrite <- ER. apply in_map; auto. }
    destruct PR as (nr & R1 & R2 & R3).
    assert (RO : ref_opt (Some r) s = Ok (Some r) (withh s (hmod (s_heap s) r ref_up))).
    { unfold ref_opt. erewrite bind_ok; [|eapply node_ref_ok; exact R1]. reflexivity. }
    rewrite RO in DE. rewrite (bind_ok _ _ _ _ _ _ _ _ DE).
    set (s1 := withh s (hmod (s_heap s) r ref_up)) in *.
    assert (K : like (s_heap s) (s_heap s1)).
    { intros j. change (s_heap s1 j) with (hmod (s_heap s) r ref_up j). destruct (s_heap s j) as [nj|] eqn:HJ.
      - rewrite (hmod_get _ _ _ _ _ HJ). destruct (Nat.eqb j r); reflexivity.
      - rewrite (proj2 (hmod_none _ _ _ _) HJ). reflexivity. }
    assert (L1 : linked s1) by (apply (like_linked s); auto).
    assert (D1 : exists nd1, s_heap s1 d = Some nd1 /\ links nd1 = links nd) by (apply (like_get _ _ K); auto).
    destruct D1 as (nd1 & D1 & D2). unfold links in D2. inversion D2 as [[Q1 Q2 Q3 Q4 Q5 Q6 Q7 Q8 Q9 Q10]].
    assert (R' : tr (s_heap s1) (T d ats ks)).
    { destruct (linked_tree _ L1 d) as (t' & T1 & T2); [exists nd1; auto|].
      assert (SAME : forall t1, tr (s_heap s) t1 -> tr (s_heap s1) t1).
      { clear - K. intros t1. induction t1 using rose_ind2. intros R. destruct (tr_inv _ _ _ _ R) as (m & A & E1 & E2 & C & N1 & F).
        destruct (like_get _ _ K _ _ A) as (m' & A' & E'). unfold links in E'. inversion E' as [[Q1 Q2 Q3 Q4 Q5 Q6 Q7 Q8 Q9 Q10]].
        assert (ats = []) by (inversion R; auto). subst ats.
        apply (tr_T _ i ks m'); auto; try congruence.
        - clear - K C. induction (map root ks) as [|c l]; simpl in *; auto. destruct C as [(n & A1 & A2 & A3 & A4) C]. split; auto.
          destruct (like_get _ _ K _ _ A1) as (n' & A' & E'). unfold links in E'. inversion E'. exists n'. repeat split; congruence.
        - clear - F H0. induction H0; auto. inversion F; subst. constructor; auto. }
      auto. }
    assert (TR1 : type_of (s_heap s1) r = Some ELEMENT) by (rewrite (like_type _ _ K); auto).
    assert (ONE1 : at_most_one (s_heap s1) d ELEMENT).
    { intros l0 x y C0 I1 I2 T1 T2. rewrite (like_type _ _ K) in T1, T2. apply (ONE l0); auto.
      apply (like_children _ _ (like_sym _ _ K)); auto. }
    rewrite KS in R'.
    destruct (find_found s1 L1 r want d nd1 D1) with (t := t) (ats := ats) (ks1 := ks1) (ks2 := ks2) as (o & F1 & F2);
      auto; try congruence.
    rewrite (bind_ok _ _ _ _ _ _ _ _ F1).
    destruct (unref_back s r nr d R1 (CO _ _ R1) R3) as (s2 & U1 & U2 & U3 & U4).
    rewrite (bind_ok _ _ _ _ _ _ _ _ (U1 : node_unref r s1 = _)).
    assert (FT : first_that (fun i => has_attr (s_heap s) i id_string (no_null want)) l o).
    { rewrite EL, KS. apply (first_that_iff _ (has_id s1 want)); auto. intros x. unfold has_id. split; apply like_has_attr; auto.
      apply like_sym; auto. }
    assert (CO2 : counted s2) by (intros j nj HJ; rewrite U4 in HJ; apply (CO j); auto).
    destruct (ref_opt_answered s2 o CO2) as (s' & S1 & S2 & S3 & S4).
    { intros x ->. apply first_that_in in FT. destruct FT as [_ (n & a & A1 & _)]. exists n. rewrite U4. auto. }
    exists o, s'. split; auto. split; auto. split; [congruence|]. split; [congruence|]. intros j. rewrite S4, U4. reflexivity.
  - exists None, s. rewrite (bind_ok _ _ _ _ _ _ _ _ (DE : _ = Ok None s)). split; [reflexivity|].
    split. { split; auto. split; auto. intros j. destruct (s_heap s j); reflexivity. }
    rewrite <- (app_nil_r l). apply first_that_skip; [|constructor]. rewrite EL. intros j I.
    rewrite in_flat_map in I. destruct I as (t & I1 & I2).
    destruct (chain_in (s_heap s) d (map root ks) (root t)) as (n & B1 & B2 & B3); auto. { apply in_map; auto. }
    assert (NE : type_of (s_heap s) (root t) <> Some ELEMENT).
    { clear - O2 I1. assert (I : In (root t) (map root ks)) by (apply in_map; auto). clear I1.
      induction (map root ks); [destruct I|]. inversion O2; subst. destruct I as [<-|I]; auto. }
    assert (PT : pre t = [root t]).
    { rewrite Forall_forall in F. apply (doc_kid_leaf s L d nd H TD t n); auto. unfold type_of in NE. rewrite B1 in NE. simpl in NE. congruence. }
    rewrite PT in I2. destruct I2 as [<-|[]]. apply (not_element s want); auto.
Qed.
