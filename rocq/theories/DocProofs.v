(** The title, the body and the collections of a document in every history. *)
From Coq Require Import List Arith NArith ZArith Bool Lia.
From Verif Require Import Base HeapModel HeapSpec HeapInv HeapExec HeapTree HeapFrame HeapOps HeapUnref HeapInsert HeapFrame StringModel HistModel HistProofs TreeSpec TreeProofs
  WalkModel WalkSpec WalkProofs WalkLists WalkFinds WalkIds WalkMore WalkReach HtmlModel HtmlSpec HtmlBase LookupSpec LookupProofs DocModel DocSpec.
Import ListNotations.
Local Open Scope dom_scope.

(** ** References taken and given back *)
Lemma answered_same : forall s o s', answered s o s' -> LookupProofs.same (s_heap s) (s_heap s').
Proof. intros s o s' (_ & _ & A) j. rewrite A. destruct (s_heap s j) as [n|]; [|reflexivity]. cbn. destruct (oid_eqb o (Some j)); reflexivity. Qed.
Lemma answered_but : forall s o s', answered s o s' -> but_counts s s'.
Proof. intros s o s' A. pose proof (answered_same _ _ _ A) as K. destruct A as (A1 & A2 & A3). split; [auto|]. split; [auto|exact K]. Qed.
Lemma answered_counted : forall s o s', roomy s -> answered s o s' -> counted s'.
Proof.
  intros s o s' R (_ & _ & A) j n H. rewrite A in H. destruct (s_heap s j) as [m|] eqn:E; [|discriminate]. pose proof (R _ _ E) as B. injection H as <-.
  destruct (oid_eqb o (Some j)); cbn [n_ref set_ref]; lia.
Qed.
Lemma unref_kept : forall s ch x n, wf s ch -> s_heap s x = Some n -> n_parent n <> None -> (0 < n_ref n)%N -> (n_ref n < two32)%N ->
  exists s', node_unref x s = Ok tt s' /\ s_log s' = s_log s /\ s_nxt s' = s_nxt s /\ forall j, s_heap s' j = if Nat.eqb j x then Some (set_ref (n_ref n - 1) n) else s_heap s j.
Proof.
  intros s ch x n W H P R1 R2. destruct (unref_spec s ch x n W H R1 R2) as (h' & ch' & E & _ & Z).
  destruct (n_parent n) as [p|]; [|congruence]. cbn [is_none negb] in Z. rewrite orb_true_r in Z. destruct Z as [-> _].
  exists (withh s (hmod (s_heap s) x ref_down)). split; [exact E|]. split; [reflexivity|]. split; [reflexivity|]. intros j. cbn [withh s_heap]. unfold hmod.
  destruct (Nat.eqb_spec j x) as [->|]; [|reflexivity]. rewrite H. cbn [option_map]. f_equal. unfold ref_down. f_equal.
  apply (ref_down_val n R1 R2).
Qed.
Lemma wf_answered : forall s s' ch o, wf s ch -> roomy s -> answered s o s' -> (forall x, o = Some x -> live (s_heap s) x) -> wf s' ch.
Proof.
  intros s s' ch [x|] W R A LV.
  - destruct (LV x eq_refl) as (n & H). apply (answered_wf s s' ch x n W A H (R _ _ H)).
  - apply (same_wf s); auto. destruct A as (A1 & A2 & A3). split; [auto|]. split; [auto|]. intros j. rewrite A3. destruct (s_heap s j); reflexivity.
Qed.

(** ** Title and body *)
Lemma below_first : forall s d name k, linked s -> counted s -> below (s_heap s) d name k ->
  list_length (named_in d name) s = Ok (N.of_nat (length k)) s /\
  exists s', list_item (named_in d name) 0 s = Ok (hd_error k) s' /\ answered s (hd_error k) s'.
Proof.
  intros s d name k L C (T & B & D). destruct (by_tag_name s L C true d name k B D) as (X & Y). split; [exact X|].
  destruct (Y 0%N ltac:(reflexivity)) as (s' & Z1 & Z2). exists s'. destruct k; auto.
Qed.
Lemma below_parent : forall s d P k x, linked s -> live (s_heap s) d -> descendants (s_heap s) d P k -> In x k -> exists n, s_heap s x = Some n /\ P n /\ n_parent n <> None.
Proof.
  intros s d P k x L LD (ds & O & PK) I. destruct (picks_in _ _ _ _ PK _ I) as (I' & n & H & Q). exists n. split; auto. split; auto.
  destruct (linked_tree s L d LD) as (t & R & E). pose proof (order_pre _ _ R (d :: ds)) as OP. rewrite E in OP. specialize (OP O).
  assert (A : anc (s_heap s) d x) by (rewrite <- E; apply (tr_anc (s_heap s) t R x); rewrite <- OP; right; auto).
  assert (ND : NoDup (d :: ds)) by (rewrite OP; apply (tr_nodup s L); auto). inversion ND; subst.
  inversion A as [|? m p M N K]; subst; [contradiction|]. congruence.
Qed.
Lemma live_type : forall h d t, type_of h d = Some t -> live h d.
Proof. intros h d t T. unfold type_of in T. destruct (h d) as [n|] eqn:E; [exists n; auto|discriminate]. Qed.

Lemma reach_title_none : forall j s g, reach j s g -> briefly j -> forall x d, f_title x = None -> below (s_heap s) d s_TITLE [] -> get_title x d s = Ok None s.
Proof.
  intros j s g R B x d F D. assert (SH : short j) by (unfold short, briefly, two32 in *; lia). pose proof (reach_linked _ _ _ R SH) as L.
  destruct (reach_roomy _ _ _ R B) as ((ch & W) & RM & _). destruct (below_first s d s_TITLE [] L (roomy_counted _ RM) D) as (X & _).
  unfold get_title. rewrite F. step X. reflexivity.
Qed.
Lemma reach_title_first : forall j s g, reach j s g -> briefly j -> forall x d t k ds vs, f_title x = None -> below (s_heap s) d s_TITLE (t :: k) ->
  order (s_heap s) t (t :: ds) -> texts (s_heap s) ds vs -> exists s', get_title x d s = Ok (joined vs) s' /\ same_state s s'.
Proof.
  intros j s g R B x d t k ds vs F D O TX. assert (SH : short j) by (unfold short, briefly, two32 in *; lia). pose proof (reach_linked _ _ _ R SH) as L.
  destruct (reach_roomy _ _ _ R B) as ((ch & W) & RM & _). destruct (below_first s d s_TITLE (t :: k) L (roomy_counted _ RM) D) as (X & s1 & Y1 & Y2).
  destruct D as (TD & BC & DS). destruct (below_parent s d _ (t :: k) t L (live_type _ _ _ TD) DS (or_introl eq_refl)) as (n & H & HT & P).
  cbn [hd_error] in *. pose proof (answered_same _ _ _ Y2) as K. destruct (same_get _ _ K _ _ H) as (n1 & H1 & U1). destruct (unref_parts _ _ U1) as (E1 & _).
  assert (TC : get_text_content t s1 = Ok (joined vs) s1).
  { apply (containers_text s1 (but_linked _ _ (answered_but _ _ _ Y2) L) t n1 ds vs H1).
    - left. rewrite E1. apply HT.
    - apply (order_like (s_heap s)); auto. apply same_like. exact K.
    - clear -TX K. induction TX as [|i n v l vs A1 A2 A3 TX IH|i n l vs A1 A2 TX IH]; [constructor| |].
      + destruct (same_get _ _ K _ _ A1) as (m & M & U). destruct (unref_parts _ _ U) as (E1 & _ & E3 & _). apply (tx_text _ _ m); auto; [rewrite E1; auto|congruence].
      + destruct (same_get _ _ K _ _ A1) as (m & M & U). destruct (unref_parts _ _ U) as (E1 & _ & E3 & _). apply (tx_other _ _ m); auto. rewrite E1, E3. auto. }
  destruct (give_back s s1 ch t n W Y2 H P (RM _ _ H)) as (s2 & G1 & G2). exists s2. split; auto.
  unfold get_title. rewrite F. step X. destruct (N.eqb_spec (N.of_nat (length (t :: k))) 0) as [Z|_]; [cbn in Z; discriminate|].
  step Y1. step TC. step G1. reflexivity.
Qed.
Lemma title_set : forall x t d s, get_title (set_title (Some t) x) d s = Ok (Some t) s.
Proof. reflexivity. Qed.

Lemma reach_body : forall j s g, reach j s g -> briefly j -> forall x d k fs before, f_body x = None -> below (s_heap s) d s_BODY k -> below (s_heap s) d s_FRAMESET fs ->
  match k ++ fs with
  | [] => get_body x d before s = Ok before s
  | _ => exists s', get_body x d before s = Ok (hd_error (k ++ fs)) s' /\ answered s (hd_error (k ++ fs)) s'
  end.
Proof.
  intros j s g R B x d k fs before F D1 D2. assert (SH : short j) by (unfold short, briefly, two32 in *; lia). pose proof (reach_linked _ _ _ R SH) as L.
  destruct (reach_roomy _ _ _ R B) as ((ch & W) & RM & _). destruct (below_first s d s_BODY k L (roomy_counted _ RM) D1) as (X & s1 & Y1 & Y2).
  destruct (below_first s d s_FRAMESET fs L (roomy_counted _ RM) D2) as (X' & s1' & Y1' & Y2'). unfold get_body. rewrite F.
  destruct k as [|b k]; cbn [app].
  - destruct fs as [|c fs]; cbn [hd_error] in *.
    + step X. cbn [length N.of_nat N.eqb]. step X'. reflexivity.
    + exists s1'. split; auto. step X. cbn [length N.of_nat N.eqb]. step X'. destruct (N.eqb_spec (N.of_nat (length (c :: fs))) 0) as [Z|_]; [cbn in Z; discriminate|]. exact Y1'.
  - exists s1. split; auto. step X. destruct (N.eqb_spec (N.of_nat (length (b :: k))) 0) as [Z|_]; [cbn in Z; discriminate|]. exact Y1.
Qed.
Lemma body_set : forall x b d before s, get_body (set_body (Some b) x) d before s = Ok (Some b) s.
Proof. reflexivity. Qed.

(** ** Collections *)
Lemma root_found : forall s d o, linked s -> counted s -> root_element (s_heap s) d o -> exists s', document_element d s = Ok o s' /\ answered s o s' /\
  forall r, o = Some r -> exists n, s_heap s r = Some n /\ n_parent n <> None /\ n_type n = ELEMENT.
Proof.
  intros s d o L C (l & CH & FT). pose proof CH as (nd & H & F). destruct (linked_list _ L _ _ H) as (l' & CC & C' & _ & _ & _).
  assert (l' = l). { destruct CC as (m & M1 & M2 & _). apply (children_det (s_heap s) d); auto. exists m; auto. } subst l'.
  destruct (first_element_ok s l (n_first nd) (fuel_of s) F) as (o1 & O1 & O2). { pose proof (children_size s L _ _ CC). unfold fuel_of. lia. }
  assert (o1 = o). { clear -O2 FT. revert o FT. induction O2; intros o' FT; inversion FT; subst; auto; contradiction. } subst o1.
  assert (LV : forall r, o = Some r -> exists n, s_heap s r = Some n /\ n_parent n <> None /\ n_type n = ELEMENT).
  { intros r ->. destruct (first_that_in _ _ _ _ FT) as (I & T). destruct (chain_in _ _ _ r C' I) as (n & N1 & N2 & N3). exists n. split; auto. split; [congruence|].
    unfold type_of in T. rewrite N1 in T. cbn in T. congruence. }
  destruct (ref_opt_answered s o C) as (s' & R1 & R2). { intros i ->. destruct (LV i eq_refl) as (n & N1 & _). exists n; auto. }
  exists s'. split; [|split; auto]. unfold document_element. step (load_ok _ _ _ H). step (O1 : with_fuel (fun f => first_element f (n_first nd)) s = Ok o s). exact R1.
Qed.
Lemma attributed_iff : forall s i n name, linked s -> s_heap s i = Some n -> (attributed name s n = true <-> carries (s_heap s) name i).
Proof.
  intros s i n name L H. unfold attributed, carries. rewrite existsb_exists. split.
  - intros (a & I & E). destruct (s_heap s a) as [na|] eqn:A; [|discriminate]. apply isequal_iff in E. exists n, a, na. split; auto.
  - intros (m & a & na & M & I & A & E). assert (m = n) by congruence; subst m. exists a. split; auto. rewrite A. apply isequal_iff. cbn. congruence.
Qed.
Lemma caseless_tag : forall name n, name <> [] -> name <> [42%N] -> n_type n = ELEMENT -> (caseless_isequal (n_name n) (Some name) = true <-> has_tag true name n).
Proof.
  intros name n N1 N2 T. pose proof (has_tag_iff true name n N1 N2) as Q. rewrite andb_true_iff, element_iff in Q. cbn [eq_of] in Q. tauto.
Qed.
Lemma member_iff : forall c s i, linked s -> (type_of (s_heap s) i = Some ELEMENT /\ member c s i = true <-> belongs c (s_heap s) i).
Proof.
  intros c s i L. unfold member, belongs, tag, type_of. destruct (s_heap s i) as [n|] eqn:H.
  2: { split; [intros (A & _); discriminate|]. intros A. exfalso. destruct c; [|destruct A as ([A|A] & _)| |destruct A as (A & _)]; destruct A as (m & M & _); discriminate. }
  cbn [option_map].
  assert (Q : forall name, name <> [] -> name <> [42%N] -> n_type n = ELEMENT -> (caseless_isequal (n_name n) (Some name) = true <-> exists m, Some n = Some m /\ has_tag true name m)).
  { intros name N1 N2 T. rewrite (caseless_tag name n N1 N2 T). split; [intros E; exists n; auto|intros (m & E & E2); congruence]. }
  assert (EL : forall name, (exists m, Some n = Some m /\ has_tag true name m) -> n_type n = ELEMENT) by (intros name (m & E & T & _); congruence).
  destruct c; rewrite ?andb_true_iff, ?orb_true_iff, ?(attributed_iff s i n _ L H).
  - split; [intros (A & B); apply Q; [discriminate|discriminate|congruence|auto]|]. intros A. split; [f_equal; eapply EL; eauto|]. apply Q; [discriminate|discriminate|eapply EL; eauto|auto].
  - split.
    + intros (A & B & D). split; auto. destruct B as [B|B]; [left|right]; (apply Q; [discriminate|discriminate|congruence|auto]).
    + intros (A & D). assert (T : n_type n = ELEMENT) by (destruct A as [A|A]; eapply EL; eauto). split; [congruence|]. split; auto.
      destruct A as [A|A]; [left|right]; (apply Q; [discriminate|discriminate|auto|auto]).
  - split; [intros (A & B); apply Q; [discriminate|discriminate|congruence|auto]|]. intros A. split; [f_equal; eapply EL; eauto|]. apply Q; [discriminate|discriminate|eapply EL; eauto|auto].
  - split.
    + intros (A & B & D). split; auto. apply Q; [discriminate|discriminate|congruence|auto].
    + intros (A & D). assert (T : n_type n = ELEMENT) by (eapply EL; eauto). split; [congruence|]. split; auto. apply Q; [discriminate|discriminate|auto|auto].
Qed.
Lemma same_tag : forall h h', LookupProofs.same h h' -> forall name i, tag h name i -> tag h' name i.
Proof.
  intros h h' K name i (n & H & T). destruct (same_get _ _ K _ _ H) as (m & M & U). destruct (unref_parts _ _ U) as (E1 & E2 & _). exists m. split; auto.
  unfold has_tag in *. rewrite E1, E2. exact T.
Qed.
Lemma same_carries : forall h h', LookupProofs.same h h' -> forall name i, carries h name i -> carries h' name i.
Proof.
  intros h h' K name i (n & a & na & H & I & A & E). destruct (same_get _ _ K _ _ H) as (m & M & U). destruct (unref_parts _ _ U) as (E1 & E2 & _ & _ & _ & _ & E7).
  destruct (same_get _ _ K _ _ A) as (ma & MA & V). destruct (unref_parts _ _ V) as (_ & F2 & _). exists m, a, ma. split; auto. split; [congruence|]. split; auto. congruence.
Qed.
Lemma same_belongs : forall h h', LookupProofs.same h h' -> forall c i, belongs c h i -> belongs c h' i.
Proof.
  intros h h' K c i B. destruct c; cbn in *; [apply (same_tag h); auto| |apply (same_tag h); auto|].
  - destruct B as ([B|B] & D); (split; [|apply (same_carries h); auto]); [left|right]; apply (same_tag h); auto.
  - destruct B as (B & D). split; [apply (same_tag h)|apply (same_carries h)]; auto.
Qed.

Lemma reach_members : forall j s g, reach j s g -> briefly j -> forall c d k, members c (s_heap s) d k ->
  (exists s', doc_length c d s = Ok (N.of_nat (length k)) s' /\ same_state s s') /\
  (forall index, (index + 1 < two32)%N -> exists s', doc_item c d index s = Ok (nth_error k (N.to_nat index)) s' /\ answered s (nth_error k (N.to_nat index)) s').
Proof.
  intros j s g R B c d k (r & l & RE & FI & O & LB & PK). assert (SH : short j) by (unfold short, briefly, two32 in *; lia). pose proof (reach_linked _ _ _ R SH) as L.
  destruct (reach_roomy _ _ _ R B) as ((ch & W) & RM & _). pose proof (roomy_counted _ RM) as C.
  destruct (root_found s d (Some r) L C RE) as (s1 & D1 & D2 & D3). destruct (D3 r eq_refl) as (n & H & P & T). pose proof (answered_same _ _ _ D2) as K.
  pose proof (but_linked _ _ (answered_but _ _ _ D2) L) as L1. pose proof (answered_counted _ _ _ RM D2) as C1.
  assert (PK1 : picks (fun i => type_of (s_heap s1) i = Some ELEMENT /\ member c s1 i = true) l k).
  { refine (picks_iff _ _ _ _ _ _ PK). intros i. rewrite (member_iff c s1 i L1). split; [apply same_belongs|apply same_belongs; apply LookupProofs.same_sym]; auto. }
  assert (FI1 : exists n1, s_heap s1 r = Some n1 /\ (n_first n1 <> None \/ n_next n1 = None)).
  { destruct FI as (m & M & _ & Z). destruct (like_get _ _ (same_like _ _ K) _ _ M) as (m1 & M1 & U). exists m1. split; auto. unfold links in U. inversion U as [[Q1 Q2 Q3 Q4 Q5 Q6 Q7 Q8 Q9 Q10]]. rewrite Q3, Q6. exact Z. }
  assert (O1 : order (s_heap s1) r l) by (apply (order_like (s_heap s)); auto; apply same_like; exact K).
  destruct (collection_list s1 L1 C1 (member c s1) r FI1 l k O1 LB PK1) as (A1 & A2 & _).
  assert (LV : live (s_heap s) r) by (exists n; auto).
  split.
  - destruct (give_back s s1 ch r n W D2 H P (RM _ _ H)) as (s2 & G1 & G2). exists s2. split; auto. unfold doc_length. step D1.
    step (A1 : (fun s => col_length (member c s) r s) s1 = _). step G1. reflexivity.
  - intros index IX. destruct (A2 index IX) as (s2 & I1 & I2). set (o := nth_error k (N.to_nat index)) in *.
    assert (OL : forall x, o = Some x -> live (s_heap s) x).
    { intros x E. apply nth_error_In in E. destruct (picks_in _ _ _ _ PK _ E) as (_ & X). apply (member_iff c s x L) in X. apply (live_type _ _ _ (proj1 X)). }
    assert (W1 : wf s1 ch) by (apply (wf_answered s s1 ch (Some r)); auto; intros x E; congruence).
    assert (H1 : s_heap s1 r = Some (set_ref (n_ref n + 1) n)) by (destruct D2 as (_ & _ & D2); rewrite D2, H, oid_refl; reflexivity).
    assert (W2 : wf s2 ch).
    { destruct o as [x|] eqn:OE.
      - destruct (OL x eq_refl) as (nx & HX). assert (HX1 : exists nx1, s_heap s1 x = Some nx1 /\ (n_ref nx1 <= n_ref nx + 1)%N).
        { destruct D2 as (_ & _ & D2). specialize (D2 x). rewrite HX in D2. eexists. split; [exact D2|]. destruct (oid_eqb (Some r) (Some x)); cbn [n_ref set_ref]; lia. }
        destruct HX1 as (nx1 & HX1 & BX).
        assert (NW : no_wrap nx1) by (unfold no_wrap; pose proof (RM _ _ HX); lia).
        apply (same_wf (withh s1 (hmod (s_heap s1) x ref_up))); [|eapply ref_up_wf; eauto].
        destruct I2 as (J1 & J2 & J3). split; [exact J1|]. split; [exact J2|]. intros i. rewrite J3. cbn [withh s_heap]. unfold hmod.
        destruct (Nat.eqb_spec i x) as [->|NJ].
        + rewrite HX1, oid_refl. cbn [option_map]. f_equal. unfold ref_up. f_equal. unfold u32. symmetry. apply N.mod_small. exact NW.
        + destruct (s_heap s1 i) as [m|]; auto. rewrite oid_other; auto.
      - apply (same_wf s1); auto. destruct I2 as (J1 & J2 & J3). split; [auto|]. split; [auto|]. intros i. rewrite J3. destruct (s_heap s1 i); reflexivity. }
    destruct I2 as (J1 & J2 & J3). destruct D2 as (K1 & K2 & K3).
    assert (H2 : exists n2, s_heap s2 r = Some n2 /\ n2 = set_ref (if oid_eqb o (Some r) then n_ref n + 2 else n_ref n + 1) n).
    { rewrite J3, H1. eexists. split; [reflexivity|]. destruct (oid_eqb o (Some r)); [|reflexivity]. cbn [n_ref set_ref]. replace (n_ref n + 1 + 1)%N with (n_ref n + 2)%N by lia. destruct n; reflexivity. }
    destruct H2 as (n2 & H2 & E2). pose proof (RM _ _ H) as RH.
    assert (RB : (0 < n_ref n2)%N /\ (n_ref n2 < two32)%N /\ n_parent n2 <> None).
    { subst n2. cbn [n_parent n_ref set_ref]. destruct (oid_eqb o (Some r)); split; try lia; split; auto; lia. }
    destruct RB as (RB1 & RB2 & RB3). destruct (unref_kept s2 ch r n2 W2 H2 RB3 RB1 RB2) as (s3 & U1 & U2 & U3 & U4). exists s3. split.
    + unfold doc_item. step D1. step (I1 : (fun s => col_item (member c s) r index s) s1 = _). step U1. reflexivity.
    + split; [congruence|]. split; [congruence|]. intros i. rewrite U4. destruct (Nat.eqb_spec i r) as [->|NR].
      * rewrite H. f_equal. subst n2. destruct (oid_eqb o (Some r)); cbn [n_ref set_ref].
        -- replace (n_ref n + 2 - 1)%N with (n_ref n + 1)%N by lia. reflexivity.
        -- replace (n_ref n + 1 - 1)%N with (n_ref n) by lia. destruct n; reflexivity.
      * rewrite J3, K3. destruct (s_heap s i) as [m|]; auto. rewrite oid_other by auto. reflexivity.
Qed.
Lemma reach_rootless : forall j s g, reach j s g -> briefly j -> forall d, root_element (s_heap s) d None ->
  forall c index, doc_length c d s = Bad AssertFail /\ doc_item c d index s = Bad AssertFail /\ applets_length d s = Bad AssertFail.
Proof.
  intros j s g R B d RE c index. assert (SH : short j) by (unfold short, briefly, two32 in *; lia). pose proof (reach_linked _ _ _ R SH) as L.
  destruct (reach_roomy _ _ _ R B) as (_ & RM & _). destruct (root_found s d None L (roomy_counted _ RM) RE) as (s1 & D1 & _ & _).
  unfold doc_length, doc_item, applets_length. rewrite !(bind_ok _ _ _ _ _ _ _ _ D1). auto.
Qed.
