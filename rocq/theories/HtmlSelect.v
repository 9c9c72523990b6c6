(** Selects: length, the selected index, setting it. *)
From Coq Require Import List Arith NArith ZArith Bool Lia ZifyBool ZifyNat ZifyN.
From Verif Require Import Base HeapModel HeapSpec HeapInv HeapExec HeapTree HeapInsert HeapFrame HeapCreate HeapOps HeapAttrNode HeapUnref HistModel HistProofs TreeSpec TreeProofs
  StringModel WalkModel WalkSpec WalkProofs WalkLists WalkFinds WalkReach HtmlModel HtmlSpec HtmlBase.
Import ListNotations.
Local Open Scope dom_scope.
Ltac step H := rewrite (bind_ok _ _ _ _ _ _ _ _ H).

(** ** Heaps that agree *)

Lemma fwd_links : forall h h' : heap, (forall j n, h j = Some n -> exists n', h' j = Some n' /\ n_next n' = n_next n) ->
  forall c l, fwd h c l -> fwd h' c l.
Proof. intros h h' K c l F. induction F as [|i n l H F IH]; [constructor|]. destruct (K _ _ H) as (n' & A & B). econstructor; [exact A|]. rewrite B. exact IH. Qed.
Lemma children_links : forall h h' : heap, (forall j n, h j = Some n -> exists n', h' j = Some n' /\ n_first n' = n_first n /\ n_next n' = n_next n) ->
  forall p l, children h p l -> children h' p l.
Proof.
  intros h h' K p l (n & H & F). destruct (K _ _ H) as (n' & A & B & _). exists n'. split; auto. rewrite B.
  eapply fwd_links; [|exact F]. intros j m M. destruct (K _ _ M) as (m' & X & _ & Y). exists m'. auto.
Qed.
Lemma order_links : forall h h' : heap, (forall p l, children h p l -> children h' p l) -> forall i l, order h i l -> order h' i l.
Proof.
  intros h h' K. fix IH 3. intros i l O. destruct O as [j m ls C F]. apply (order_node _ j m ls); [apply K; exact C|].
  clear C. revert m ls F. fix IH2 3. intros l ls F. destruct F as [|x y l ls O F]; constructor; [apply IH; exact O|apply IH2; exact F].
Qed.
Lemma order_members : forall h i l, order h i l -> forall x, In x l -> live h x.
Proof.
  intros h. fix IH 3. intros i l O. destruct O as [j m ls C F]. intros x [<-|I]; [destruct C as (n & H & _); exists n; auto|].
  clear C. revert m ls F I. fix IH2 3. intros l ls F. destruct F as [|a b l ls O F]; simpl; intros I; [contradiction|].
  apply in_app_or in I. destruct I as [I|I]; [eapply IH; [exact O|exact I]|eapply IH2; [exact F|exact I]].
Qed.
Lemma order_head : forall h i l, order h i l -> In i l.
Proof. intros h i l O. destruct O. left; auto. Qed.

Lemma listed_placed : forall h h' : heap, (forall j n, h j = Some n -> exists n', h' j = Some n' /\ placed n n') ->
  forall c name e k, listed c name h e k -> listed c name h' e k.
Proof.
  intros h h' K c name e k (l & O & B & P). exists l. split; [|split; auto].
  - eapply order_links; [|exact O]. apply children_links. intros j n H. destruct (K _ _ H) as (n' & A & X). exists n'. destruct X as (_&_&_&_&_&_&X1&_&_&X2&_). auto.
  - pose proof (order_members _ _ _ O) as M. clear O B. induction P as [|x l k Y P IH|x l k Y P IH]; [constructor| |].
    + apply picks_yes; [|apply IH; intros; apply M; right; auto]. destruct Y as (n & H & T). destruct (K _ _ H) as (n' & A & X). exists n'. split; auto.
      destruct X as (X1 & X2 & _). unfold has_tag in *. rewrite X1, X2. exact T.
    + apply picks_no; [|apply IH; intros; apply M; right; auto]. intros (n' & A & T). apply Y. destruct (M x) as (n & H); [left; auto|]. exists n. split; auto.
      destruct (K _ _ H) as (n1 & A1 & X). assert (n1 = n') by congruence. subst n1. destruct X as (X1 & X2 & _). unfold has_tag in *. rewrite X1, X2 in T. exact T.
Qed.
Lemma filled_placed : forall h h' : heap, (forall j n, h j = Some n -> exists n', h' j = Some n' /\ placed n n') -> forall e, filled h e -> filled h' e.
Proof.
  intros h h' K e (n & H & T & D). destruct (K _ _ H) as (n' & A & X). exists n'. destruct X as (X1&_&_&_&_&_&X2&_&_&X3&_). split; auto. split; [congruence|]. rewrite X2, X3. exact D.
Qed.
Lemma options_placed : forall h h' : heap, (forall j n, h j = Some n -> exists n', h' j = Some n' /\ placed n n') ->
  forall e k, options h e k -> options h' e k.
Proof. intros h h' K e k (A & B & C). split; [eapply filled_placed; eauto|]. split; auto. eapply listed_placed; eauto. Qed.
Lemma placed_refl : forall n, placed n n.
Proof. intros n. repeat split. Qed.
Lemma placed_trans : forall a b c, placed a b -> placed b c -> placed a c.
Proof. unfold placed. intros a b c (A1&A2&A3&A4&A5&A6&A7&A8&A9&A10&A11&A12) (B1&B2&B3&B4&B5&B6&B7&B8&B9&B10&B11&B12). repeat split; congruence. Qed.
Lemma same_placed : forall s s', same_state s s' -> forall j n, s_heap s j = Some n -> exists n', s_heap s' j = Some n' /\ placed n n'.
Proof. intros s s' (_ & _ & E) j n H. exists n. rewrite E. split; auto. apply placed_refl. Qed.
Lemma carries_ext : forall h h' : heap, (forall j, h' j = h j) -> forall nm y, carries h nm y -> carries h' nm y.
Proof. intros h h' E nm y (n & a & na & A & B & C & D). exists n, a, na. rewrite !E. auto. Qed.

Lemma anc_back : forall h h' : heap, (forall j n, h j = Some n -> exists n', h' j = Some n' /\ n_parent n' = n_parent n) ->
  (forall j n p, h j = Some n -> n_parent n = Some p -> live h p) -> forall a i, anc h' a i -> live h i -> anc h a i /\ live h a.
Proof.
  intros h h' K LV a i A. induction A as [|i n' p H P A IH]; intros (n & L); [split; [constructor|exists n; auto]|].
  destruct (K _ _ L) as (n1 & B & C). assert (n1 = n') by congruence. subst n1. assert (PP : n_parent n = Some p) by congruence.
  destruct (IH (LV _ _ _ L PP)) as [X Y]. split; auto. eapply anc_step; eauto.
Qed.
Lemma read_only_back : forall h h' : heap, (forall j n, h j = Some n -> exists n', h' j = Some n' /\ n_parent n' = n_parent n /\ n_type n' = n_type n /\ n_ro n' = n_ro n) ->
  (forall j n p, h j = Some n -> n_parent n = Some p -> live h p) -> forall i, live h i -> read_only h' i -> read_only h i.
Proof.
  intros h h' K LV i (n & L) (n' & H' & Q). destruct (K _ _ L) as (n1 & B & C1 & C2 & C3). assert (n1 = n') by congruence. subst n1.
  exists n. split; auto. rewrite C2, C3 in Q. destruct Q as [Q|[Q|[Q|(T & a & na & AN & HA & TA)]]]; auto. right. right. right. split; auto.
  destruct (anc_back h h') with (a := a) (i := i) as [X (ma & Y)]; auto.
  { intros j m M. destruct (K _ _ M) as (m' & M1 & M2 & _). exists m'. auto. } { exists n; auto. }
  exists a, ma. split; auto. split; auto. destruct (K _ _ Y) as (m' & M1 & _ & M2 & _). assert (m' = na) by congruence. subst m'. rewrite <- M2. exact TA.
Qed.
Lemma wf_parents : forall s ch, wf s ch -> forall j n p, s_heap s j = Some n -> n_parent n = Some p -> live (s_heap s) p.
Proof. intros s ch (_ & WT & _) j n p H P. destruct (wt_parent _ _ WT _ _ _ H P) as (np & Hp & _). exists np; auto. Qed.

(** ** Boolean properties *)

Lemma first_named_some : forall h nm l, (exists a, first_named h nm l a) -> exists a na, In a l /\ h a = Some na /\ no_null (n_name na) = nm.
Proof. intros h nm l (a & F). induction F as [a n l H E|a n l x H E F (b & nb & I & IH)]; [exists a, n; split; [left|]; auto|exists b, nb; split; [right|]; auto]. Qed.
Lemma some_first_named : forall h nm l a na, (forall b, In b l -> live h b) -> In a l -> h a = Some na -> no_null (n_name na) = nm -> exists b, first_named h nm l b.
Proof.
  intros h nm l. induction l as [|x l IH]; intros a na LV I H E; [contradiction|]. destruct (LV x) as (nx & X); [left; auto|].
  destruct (list_eq_dec N.eq_dec (no_null (n_name nx)) nm) as [Q|Q]; [exists x; eapply fn_here; eauto|].
  destruct I as [->|I]. { assert (nx = na) by congruence. subst. congruence. }
  destruct (IH a na) as (b & F); auto. { intros; apply LV; right; auto. } exists b. eapply fn_next; eauto.
Qed.
Lemma has_property_ok : forall s nm x n, linked s -> s_heap s x = Some n ->
  exists b, has_property nm x s = Ok b s /\ (b = true <-> carries (s_heap s) nm x).
Proof.
  intros s nm x n L H. assert (LV : forall a, In a (n_attrs n) -> live (s_heap s) a).
  { intros a I. pose proof (ln_attrs _ L _ _ _ H I) as Q. unfold type_of in Q. destruct (s_heap s a) as [na|] eqn:E; [exists na; auto|discriminate]. }
  unfold has_property. step (load_ok _ _ _ H).
  destruct (find_attr_ok s nm (n_attrs n) LV) as [(a & I & F & E)|[F E]]; step E.
  - exists true. split; [reflexivity|]. split; auto. intros _. destruct (first_named_some _ _ _ (ex_intro _ a F)) as (b & nb & B1 & B2 & B3). exists n, b, nb. auto.
  - exists false. split; [reflexivity|]. split; [discriminate|]. intros (n' & a & na & A & B & C & D). exfalso. assert (n' = n) by congruence. subst n'.
    destruct (some_first_named _ _ _ _ _ LV B C D) as (b & Q). eapply F; eauto.
Qed.

Lemma set_property_ok : forall s ch nm x n, wf s ch -> s_heap s x = Some n -> n_type n = ELEMENT -> ~ read_only (s_heap s) x ->
  exists s' ch', set_property nm x s = Ok tt s' /\ wf s' ch' /\ marked s x nm s' /\
    (forall j n', s_heap s' j = Some n' -> live (s_heap s) j \/ n_ref n' = 0%N).
Proof.
  intros s ch nm x n W Hx T NR. pose proof W as (WL & WT & WO & WR). pose proof (wf_linked _ _ W) as L.
  destruct (has_property_ok s nm x n L Hx) as (b & EB & BC). unfold set_property. step EB. destruct b.
  { exists s, ch. split; [reflexivity|]. split; auto. assert (C : carries (s_heap s) nm x) by (apply BC; auto). split; [|intros j n' J; left; exists n'; auto].
    constructor; auto.
    - intros j m M. exists m. split; auto. split; auto. apply placed_refl.
    - intros nm' y LY. split; auto. intros [Q|[-> ->]]; auto. }
  assert (NC : ~ carries (s_heap s) nm x) by (intros Q; apply BC in Q; discriminate). clear BC EB.
  destruct (parent_doc _ _ WT WO _ _ Hx) as (d & nd & OD & HD & TD). { intros (Q & _); congruence. } { congruence. }
  assert (ED : html_doc x s = Ok d s). { unfold html_doc. step (load_ok _ _ _ Hx). rewrite OD. step (load_ok _ _ _ HD). reflexivity. }
  step ED. destruct (create_node_spec s ch d nd ATTRIBUTE (Some nm) None None None W HD TD ltac:(discriminate)) as (h1 & E1 & W1 & G1).
  step E1. set (a := s_nxt s) in *. set (s1 := mkSt h1 (S a) (s_log s)) in *.
  assert (FR : s_heap s a = None) by (apply (gr_fresh _ _ _ _ _ G1)).
  assert (G : forall j m, s_heap s j = Some m -> h1 j = Some (if Nat.eqb j d then set_pend (n_pend m ++ [a]) m else m)).
  { intros j m M. destruct (Nat.eqb_spec j d) as [->|NJ].
    - destruct (gr_doc _ _ _ _ _ G1 d eq_refl) as (nd' & A & _ & B). assert (nd' = m) by congruence. subst. exact B.
    - rewrite (gr_other _ _ _ _ _ G1 j); [auto|congruence|congruence]. }
  assert (XD : x <> d) by (intros ->; assert (n = nd) by congruence; subst; congruence).
  assert (HX1 : h1 x = Some n). { rewrite (G _ _ Hx). destruct (Nat.eqb_spec x d); [contradiction|auto]. }
  assert (HA1 := gr_new _ _ _ _ _ G1). set (na := set_pending true (new_node ATTRIBUTE (Some nm) None None None (Some d))) in *.
  destruct (set_attribute_node_spec s1 ch x a n na W1 HX1 HA1 T eq_refl) as [(Q & _)|[(_ & Q & _)|[(_ & _ & Q & _)|(_ & _ & _ & h2 & d' & lg & E2 & OD' & OW & W2)]]].
  { discriminate. } { exfalso. apply Q. symmetry. exact OD. }
  { exfalso. apply NR. eapply (read_only_back (s_heap s) h1); [| |exists n; auto|exact Q].
    - intros j m M. exists (if Nat.eqb j d then set_pend (n_pend m ++ [a]) m else m). split; [apply G; auto|]. destruct (Nat.eqb j d); auto.
    - apply (wf_parents _ _ W). }
  { exfalso. apply Q. reflexivity. }
  assert (d' = d) by congruence. subst d'. change (s_heap s1) with h1 in OW.
  assert (TE : try (set_attribute_node x a) s1 = Ok (inl tt) (withh (addlog s1 lg) h2)) by (unfold try; rewrite E2; reflexivity).
  step TE. set (s2 := withh (addlog s1 lg) h2) in *.
  assert (HA2 := ow_some _ _ _ _ _ OW _ _ HA1). unfold own in HA2. rewrite Nat.eqb_refl in HA2.
  destruct (unref_spec s2 ch a _ W2 HA2) as (h3 & ch3 & E3 & W3 & Z). { reflexivity. } { reflexivity. }
  assert (CO : (1 <? n_ref (set_pending false (set_parent (Some x) na)))%N || negb (is_none (n_parent (set_pending false (set_parent (Some x) na)))) = true) by reflexivity.
  rewrite CO in Z. destruct Z as [-> ->]. change (s_heap s2) with h2 in *. step E3.
  exists (withh s2 (hmod h2 a ref_down)), ch. split; [reflexivity|]. split; [exact W3|].
  assert (NA : forall j m, s_heap s j = Some m -> j <> a) by (intros j m M ->; congruence).
  set (h3 := hmod h2 a ref_down) in *.
  assert (K : forall j m, s_heap s j = Some m -> exists m', h3 j = Some m' /\ placed m m' /\ n_attrs m' = (if Nat.eqb j x then n_attrs m ++ [a] else n_attrs m)).
  { intros j m M. pose proof (NA _ _ M) as J. pose proof (ow_some _ _ _ _ _ OW _ _ (G _ _ M)) as O. unfold own in O.
    unfold h3. rewrite hmod_other by auto. rewrite O. destruct (Nat.eqb_spec j a); [contradiction|].
    destruct (Nat.eqb_spec j d) as [->|ND].
    - destruct (Nat.eqb_spec d x); [subst; contradiction|]. eexists. split; [reflexivity|]. repeat split.
    - destruct (Nat.eqb_spec j x); eexists; (split; [reflexivity|]); repeat split. }
  assert (HA3 : exists na', h3 a = Some na' /\ n_name na' = Some nm /\ n_ref na' = 0%N).
  { unfold h3. rewrite hmod_same, HA2. cbn [option_map]. eexists. split; [reflexivity|]. split; reflexivity. }
  split.
  - constructor.
    + eapply wf_linked; exact W3.
    + intros j m M. destruct (K _ _ M) as (m' & A & B & C). exists m'. split; [exact A|]. split; auto. intros N. rewrite C. destruct (Nat.eqb_spec j x); [contradiction|auto].
    + intros nm' y (m & M). change (s_heap (withh s2 h3)) with h3. destruct (K _ _ M) as (m' & A & B & C).
      assert (AT : forall b, In b (n_attrs m) -> exists nb nb', s_heap s b = Some nb /\ h3 b = Some nb' /\ n_name nb' = n_name nb).
      { intros b I. destruct (wt_attrs _ _ WT _ _ M) as (_ & _ & Q). destruct (Q b I) as (nb & B1 & _). destruct (K _ _ B1) as (nb' & B2 & B3 & _). exists nb, nb'.
        destruct B3 as (_ & B3 & _). auto. }
      split.
      * intros (m0 & b & nb & M0 & I & HB & NB). assert (m0 = m') by congruence. subst m0. rewrite C in I.
        assert (D : In b (n_attrs m) \/ (y = x /\ b = a)).
        { destruct (Nat.eqb_spec y x); [|auto]. apply in_app_or in I. destruct I as [I|[<-|[]]]; auto. }
        destruct D as [D|[-> ->]].
        { left. destruct (AT _ D) as (nb0 & nb' & B1 & B2 & B3). assert (nb' = nb) by congruence. subst. exists m, b, nb0. rewrite <- B3. auto. }
        right. split; auto. destruct HA3 as (na' & P1 & P2 & _). assert (na' = nb) by congruence. subst na'. rewrite P2 in NB. symmetry. exact NB.
      * intros [(m0 & b & nb & M0 & I & HB & NB)|[-> ->]].
        { assert (m0 = m) by congruence. subst m0. destruct (AT _ I) as (nb0 & nb' & B1 & B2 & B3). assert (nb0 = nb) by congruence. subst. exists m', b, nb'.
          split; auto. split; [|split; auto; rewrite B3; reflexivity]. rewrite C. destruct (Nat.eqb y x); [apply in_or_app; left|]; auto. }
        destruct HA3 as (na' & P1 & P2 & _). exists m', a, na'. split; auto. rewrite C, Nat.eqb_refl. split; [apply in_or_app; right; left; auto|]. split; auto. rewrite P2. reflexivity.
  - intros j n' J. change (s_heap (withh s2 h3)) with h3 in J. destruct (Nat.eq_dec j a) as [->|NJ].
    { right. destruct HA3 as (na' & P1 & _ & P2). congruence. }
    left. unfold h3 in J. rewrite hmod_other in J by auto. destruct (owned_inv _ _ _ _ _ OW _ _ J) as (m1 & M1 & _).
    destruct (s_heap s j) as [m|] eqn:M; [exists m; auto|]. exfalso. destruct (Nat.eq_dec j d) as [->|ND]; [congruence|].
    rewrite (gr_other _ _ _ _ _ G1 j) in M1; congruence.
Qed.

(** ** The options *)

Lemma option_name : s_OPTION <> [] /\ s_OPTION <> [42%N].
Proof. split; discriminate. Qed.
Lemma anc_parent : forall h e x n, anc h e x -> x <> e -> h x = Some n -> n_parent n <> None.
Proof. intros h e x n A N H. inversion A; subst; [contradiction|]. congruence. Qed.
Lemma option_parent : forall s ch e k x, wf s ch -> options (s_heap s) e k -> In x k ->
  exists n, s_heap s x = Some n /\ n_type n = ELEMENT /\ n_parent n <> None /\ anc (s_heap s) e x /\ x <> e.
Proof.
  intros s ch e k x W (FI & NI & LS) I. pose proof (wf_linked _ _ W) as L. destruct (listed_tag s false s_OPTION e L FI k LS x I) as (n & H & (T & _) & A).
  assert (NE : x <> e) by (intros ->; contradiction). exists n. split; auto. split; auto. split; [eapply anc_parent; eauto|auto].
Qed.

Lemma select_length_ok : forall s ch e k, wf s ch -> roomy s -> options (s_heap s) e k -> select_length e s = Ok (N.of_nat (length k)) s.
Proof.
  intros s ch e k W R (FI & _ & LS). destruct option_name. apply (count_ok s false s_OPTION e); auto; [eapply wf_linked; eauto|apply roomy_counted; auto].
Qed.
Lemma select_item : forall s ch e k index, wf s ch -> roomy s -> options (s_heap s) e k -> (index + 1 < two32)%N ->
  exists s', item_in isequal s_OPTION e index s = Ok (nth_error k (N.to_nat index)) s' /\ answered s (nth_error k (N.to_nat index)) s'.
Proof.
  intros s ch e k index W R (FI & _ & LS) B. destruct option_name. apply (item_ok s false s_OPTION e); auto; [eapply wf_linked; eauto|apply roomy_counted; auto].
Qed.
Lemma options_bound : forall h e k, options h e k -> (N.of_nat (length k) < 2147483648)%N.
Proof. intros h e k (_ & _ & l & O & B & P). pose proof (picks_length _ _ _ _ P). lia. Qed.

(** An item has the same attributes. *)
Lemma answered_carries : forall s o s' nm y, answered s o s' -> (carries (s_heap s') nm y <-> carries (s_heap s) nm y).
Proof.
  intros s o s' nm y (_ & _ & E). split; intros (n & a & na & A & B & C & D).
  - rewrite E in A, C. destruct (s_heap s y) as [m|] eqn:M; [|discriminate]. destruct (s_heap s a) as [ma|] eqn:MA; [|discriminate]. exists m, a, ma. split; auto.
    injection A as A. injection C as C. split. { destruct (oid_eqb o (Some y)); subst n; auto. } split; auto. destruct (oid_eqb o (Some a)); subst na; auto.
  - exists (if oid_eqb o (Some y) then set_ref (n_ref n + 1) n else n), a, (if oid_eqb o (Some a) then set_ref (n_ref na + 1) na else na).
    rewrite !E, A, C. split; auto. split; [destruct (oid_eqb o (Some y)); auto|]. split; auto. destruct (oid_eqb o (Some a)); auto.
Qed.

Lemma selected_from_ok : forall s ch e k, wf s ch -> roomy s -> options (s_heap s) e k ->
  forall b a s', k = a ++ b -> same_state s s' -> Forall (fun x => ~ carries (s_heap s) s_selected x) a ->
  exists z s'', selected_from (length b) e (N.of_nat (length a)) s' = Ok z s'' /\ same_state s s'' /\ first_index (carries (s_heap s) s_selected) k z.
Proof.
  intros s ch e k W R OP. pose proof (options_bound _ _ _ OP) as BD. induction b as [|x b IH]; intros a s' EK SM FA.
  { exists (-1)%Z, s'. split; [reflexivity|]. split; auto. apply fi_none. rewrite EK, app_nil_r. exact FA. }
  cbn [length selected_from]. assert (W' := same_wf _ _ _ SM W). assert (R' := same_roomy _ _ SM R).
  assert (OP' : options (s_heap s') e k) by (eapply options_placed; [apply same_placed; exact SM|exact OP]).
  assert (LN : length k = length a + S (length b)) by (rewrite EK, app_length; reflexivity).
  destruct (select_item s' ch e k (N.of_nat (length a)) W' R' OP') as (s1 & E1 & A1). { unfold two32. lia. }
  assert (NT : nth_error k (N.to_nat (N.of_nat (length a))) = Some x). { rewrite Nat2N.id, EK, nth_error_app2, Nat.sub_diag by lia. reflexivity. }
  rewrite NT in E1, A1. step E1. cbn [deref]. rewrite bind_ret.
  assert (I : In x k) by (rewrite EK; apply in_or_app; right; left; auto).
  destruct (option_parent s' ch e k x W' OP' I) as (n & H & T & P & _ & _).
  assert (B8 := R' _ _ H). destruct (answered_wf _ _ _ _ _ W' A1 H B8) as [W1 H1].
  destruct (has_property_ok s1 s_selected x _ (wf_linked _ _ W1) H1) as (bb & EB & BC). step EB.
  destruct (give_back _ _ _ _ _ W' A1 H P B8) as (s2 & E2 & SM2). step E2.
  assert (SM3 : same_state s s2) by (eapply same_trans; eauto).
  assert (BC' : bb = true <-> carries (s_heap s) s_selected x).
  { rewrite BC. rewrite (answered_carries _ _ _ _ _ A1). destruct SM as (_ & _ & Q). split; apply carries_ext; auto. }
  destruct bb.
  - exists (as_i32 (N.of_nat (length a))), s2. split; [reflexivity|]. split; auto. rewrite as_i32_small by lia. rewrite EK. apply fi_some; auto. apply BC'; auto.
  - assert (U : u32 (N.of_nat (length a) + 1) = N.of_nat (length (a ++ [x]))).
    { rewrite app_length. cbn [length]. unfold u32. rewrite N.mod_small; [lia|unfold two32; lia]. }
    rewrite U. apply IH; auto. { rewrite <- app_assoc. exact EK. }
    apply Forall_app. split; auto. constructor; auto. intros Q. apply BC' in Q. discriminate.
Qed.
Lemma selected_index_ok : forall s ch e k, wf s ch -> roomy s -> options (s_heap s) e k ->
  exists z s', selected_index e s = Ok z s' /\ same_state s s' /\ first_index (carries (s_heap s) s_selected) k z.
Proof.
  intros s ch e k W R OP. unfold selected_index. step (select_length_ok s ch e k W R OP). rewrite Nat2N.id.
  apply (selected_from_ok s ch e k W R OP k [] s); auto. apply same_refl.
Qed.

(** ** Setting the selected index *)

Definition mark (x : id) : M st unit :=
  r <- try (set_property s_selected x) ;; node_unref x ;;; match r with inl _ => ret tt | inr y => raise y end.

Lemma mark_ok : forall s s1 ch x n, wf s ch -> roomy s -> s_heap s x = Some n -> n_type n = ELEMENT -> ~ read_only (s_heap s) x -> answered s (Some x) s1 ->
  exists s' ch', mark x s1 = Ok tt s' /\ wf s' ch' /\ roomy s' /\ marked s x s_selected s'.
Proof.
  intros s s1 ch x n W R H T NR A. assert (B8 := R _ _ H). destruct (answered_wf _ _ _ _ _ W A H B8) as [W1 H1].
  assert (K1 : forall j m, s_heap s j = Some m -> s_heap s1 j = Some (if Nat.eqb j x then set_ref (n_ref m + 1) m else m)).
  { intros j m M. destruct A as (_ & _ & E). rewrite E, M. destruct (Nat.eqb_spec j x) as [->|NJ]; [rewrite oid_refl|rewrite oid_other by auto]; reflexivity. }
  assert (NR1 : ~ read_only (s_heap s1) x).
  { intros Q. apply NR. eapply (read_only_back (s_heap s) (s_heap s1)); [| |exists n; auto|exact Q].
    - intros j m M. exists (if Nat.eqb j x then set_ref (n_ref m + 1) m else m). split; [apply K1; auto|]. destruct (Nat.eqb j x); auto.
    - apply (wf_parents _ _ W). }
  destruct (set_property_ok s1 ch s_selected x _ W1 H1 T NR1) as (s2 & ch2 & E2 & W2 & MK & NEW).
  destruct (mk_nodes _ _ _ _ MK _ _ H1) as (n2 & H2 & PL & _). pose proof PL as (P1&P2&P3&P4&P5&P6&P7&P8&P9&P10&P11&P12).
  cbn [n_ref set_ref] in P12. cbn [n_parent set_ref] in P6.
  destruct (unref_spec s2 ch2 x n2 W2 H2) as (h3 & ch3 & E3 & W3 & Z). { lia. } { lia. }
  assert (CO : (1 <? n_ref n2)%N || negb (is_none (n_parent n2)) = true).
  { rewrite P6. destruct (n_parent n) as [p|] eqn:PP; [rewrite orb_true_r; reflexivity|]. destruct W as (_ & _ & _ & WR).
    pose proof (wr_top _ _ WR _ _ H PP ltac:(congruence)). apply orb_true_iff. left. apply N.ltb_lt. lia. }
  rewrite CO in Z. destruct Z as [-> ->]. exists (withh s2 (hmod (s_heap s2) x ref_down)), ch2.
  assert (TE : try (set_property s_selected x) s1 = Ok (inl tt) s2) by (unfold try; rewrite E2; reflexivity).
  unfold mark. step TE. step E3. split; [reflexivity|]. split; [exact W3|].
  set (h3 := hmod (s_heap s2) x ref_down) in *.
  assert (K : forall j m, s_heap s j = Some m -> exists m', h3 j = Some m' /\ placed m m' /\ (j <> x -> n_attrs m' = n_attrs m)).
  { intros j m M. destruct (mk_nodes _ _ _ _ MK _ _ (K1 _ _ M)) as (m2 & M2 & Q & AT). unfold h3. destruct (Nat.eqb_spec j x) as [->|NJ].
    - assert (m = n) by congruence. subst m. assert (m2 = n2) by congruence. subst m2. rewrite hmod_same, H2. exists (ref_down n2). split; [reflexivity|].
      split; [|intros X; contradiction]. assert (RV : n_ref (ref_down n2) = n_ref n) by (rewrite ref_down_val; lia).
      unfold placed. repeat (split; [assumption|]). exact RV.
    - rewrite hmod_other by auto. exists m2. split; auto. }
  assert (BACK : forall j m', h3 j = Some m' -> exists m2, s_heap s2 j = Some m2 /\ n_attrs m' = n_attrs m2 /\ n_name m' = n_name m2 /\ (j <> x -> m' = m2)).
  { intros j m' J. unfold h3 in J. destruct (Nat.eq_dec j x) as [->|NJ].
    - rewrite hmod_same, H2 in J. injection J as <-. exists n2. repeat split; auto. intros Q; contradiction.
    - rewrite hmod_other in J by auto. exists m'. auto. }
  split.
  - intros j m' J. change (s_heap (withh s2 h3)) with h3 in J. destruct (s_heap s j) as [m|] eqn:M.
    { destruct (K _ _ M) as (m1 & J1 & Q & _). assert (m1 = m') by congruence. subst m1. destruct Q as (_&_&_&_&_&_&_&_&_&_&_&Q). rewrite Q. eauto. }
    assert (NJ : j <> x) by congruence. destruct (BACK _ _ J) as (m2 & M2 & _ & _ & Q). rewrite (Q NJ). destruct (NEW _ _ M2) as [(m1 & X)|X].
    + destruct A as (_ & _ & A). rewrite A, M in X. discriminate.
    + rewrite X. unfold two32. lia.
  - constructor; auto.
    + eapply wf_linked; exact W3.
    + intros nm y LY. change (s_heap (withh s2 h3)) with h3.
      assert (LY1 : live (s_heap s1) y). { destruct LY as (m & M). eexists. apply K1. exact M. }
      rewrite <- (answered_carries _ _ _ nm y A). rewrite <- (mk_carries _ _ _ _ MK nm y LY1). split; intros (m & b & mb & M & I & MB & NB).
      * destruct (BACK _ _ M) as (m2 & M2 & Q1 & _). destruct (BACK _ _ MB) as (b2 & B2 & _ & Q2 & _). exists m2, b, b2. rewrite <- Q1, <- Q2. auto.
      * exists (if Nat.eqb y x then ref_down m else m), b, (if Nat.eqb b x then ref_down mb else mb). unfold h3, hmod.
        rewrite M, MB. split; [destruct (Nat.eqb y x); reflexivity|]. split; [destruct (Nat.eqb y x); exact I|]. split; [destruct (Nat.eqb b x); reflexivity|]. destruct (Nat.eqb b x); exact NB.
Qed.

Lemma set_selected_ok : forall s ch e k index x, wf s ch -> roomy s -> options (s_heap s) e k -> (0 <= index)%Z -> nth_error k (Z.to_nat index) = Some x ->
  ~ read_only (s_heap s) x ->
  exists s' ch', set_selected_index e index s = Ok tt s' /\ wf s' ch' /\ roomy s' /\ marked s x s_selected s'.
Proof.
  intros s ch e k index x W R OP I0 NT NR. pose proof (options_bound _ _ _ OP) as BD.
  assert (LT : Z.to_nat index < length k) by (apply nth_error_Some; congruence).
  assert (IU : as_u32 index = Z.to_N index) by (apply as_u32_small; lia).
  destruct (select_item s ch e k (as_u32 index) W R OP) as (s1 & E1 & A1). { rewrite IU. unfold two32. lia. }
  assert (NN : N.to_nat (as_u32 index) = Z.to_nat index) by (rewrite IU; lia). rewrite NN, NT in E1, A1.
  destruct (option_parent s ch e k x W OP (nth_error_In _ _ NT)) as (n & H & T & _).
  destruct (mark_ok s s1 ch x n W R H T NR A1) as (s' & ch' & E2 & Q). exists s', ch'. split; auto.
  unfold set_selected_index. step E1. cbn [deref]. rewrite bind_ret. exact E2.
Qed.

Lemma set_selected_out : forall s ch e k index, wf s ch -> roomy s -> options (s_heap s) e k -> (-2147483648 <= index < 2147483648)%Z -> index <> (-1)%Z ->
  nth_error k (Z.to_nat index) = None \/ (index < 0)%Z -> set_selected_index e index s = Bad NullDeref.
Proof.
  intros s ch e k index W R OP IB N1 D. pose proof (options_bound _ _ _ OP) as BD.
  assert (IU : as_u32 index = Z.to_N (if index <? 0 then index + 4294967296 else index)%Z).
  { unfold as_u32. destruct (Z.ltb_spec index 0); [|rewrite Z.mod_small; lia]. f_equal. rewrite <- (Z.mod_add index 1) by lia. rewrite Z.mod_small; lia. }
  assert (NN : nth_error k (N.to_nat (as_u32 index)) = None).
  { rewrite IU. destruct (Z.ltb_spec index 0); [apply nth_error_None; lia|]. destruct D as [D|D]; [|lia]. rewrite <- D. f_equal. lia. }
  destruct (select_item s ch e k (as_u32 index) W R OP) as (s1 & E1 & A1). { rewrite IU. unfold two32. destruct (Z.ltb_spec index 0); lia. }
  rewrite NN in E1. unfold set_selected_index. step E1. reflexivity.
Qed.

(** -1 becomes 2^32 - 1, and the position looked for 0: the select itself. *)
Lemma select_self : forall s ch e k, wf s ch -> roomy s -> options (s_heap s) e k ->
  exists s', item_in isequal s_OPTION e (as_u32 (-1)) s = Ok (Some e) s' /\ answered s (Some e) s'.
Proof.
  intros s ch e k W R (FI & NI & LS). pose proof (wf_linked _ _ W) as L. destruct (html_doc_ok s e L FI) as (d & ED & _).
  destruct FI as (n & H & T & _). assert (NT : element_node n && tagged_as isequal s_OPTION s e = false).
  { destruct (element_node n && tagged_as isequal s_OPTION s e) eqn:Q; auto. exfalso. apply NI. destruct LS as (l & O & _ & P).
    assert (HT : exists m, s_heap s e = Some m /\ has_tag false s_OPTION m).
    { exists n. split; auto. destruct option_name as [O1 O2]. apply (has_tag_iff false s_OPTION n O1 O2). unfold tagged_as in Q. rewrite H in Q. exact Q. }
    pose proof (order_head _ _ _ O) as I. clear O. induction P as [|x l k Y P IH|x l k Y P IH]; [contradiction| |].
    - destruct I as [->|I]; [left; auto|]. right. apply IH; auto. intros Z. apply NI. right. exact Z.
    - destruct I as [->|I]; [contradiction|]. apply IH; auto. }
  assert (FE : exists f, fuel_of s = S f) by (unfold fuel_of; eexists; rewrite Nat.add_comm; reflexivity). destruct FE as (f & FE).
  assert (EI : with_fuel (fun f => col_item_loop f (tagged_as isequal s_OPTION s) e (as_u32 (-1)) (Some e) 0%N) s = Ok (Some e) s).
  { unfold with_fuel. rewrite FE. cbn [col_item_loop]. step (load_ok _ _ _ H). rewrite NT. reflexivity. }
  exists (withh s (hmod (s_heap s) e ref_up)). split.
  - unfold item_in. step ED. unfold col_item. step EI. unfold ref_opt, node_ref. 
    rewrite (bind_ok _ _ _ _ _ _ _ _ (upd_ok s e n ref_up H)). reflexivity.
  - split; [reflexivity|]. split; [reflexivity|]. intros j. cbn [withh s_heap]. unfold hmod. destruct (Nat.eqb_spec j e) as [->|NJ].
    + rewrite H, oid_refl. cbn [option_map]. assert (U : u32 (n_ref n + 1) = (n_ref n + 1)%N) by (pose proof (R _ _ H); unfold u32; apply N.mod_small; unfold two32 in *; lia). unfold ref_up. rewrite U. reflexivity.
    + destruct (s_heap s j); auto. rewrite oid_other; auto.
Qed.
Lemma set_selected_self : forall s ch e k, wf s ch -> roomy s -> options (s_heap s) e k -> ~ read_only (s_heap s) e ->
  exists s' ch', set_selected_index e (-1) s = Ok tt s' /\ wf s' ch' /\ roomy s' /\ marked s e s_selected s'.
Proof.
  intros s ch e k W R OP NR. destruct (select_self s ch e k W R OP) as (s1 & E1 & A1). destruct OP as ((n & H & T & _) & _).
  destruct (mark_ok s s1 ch e n W R H T NR A1) as (s' & ch' & E2 & Q). exists s', ch'. split; auto.
  unfold set_selected_index. step E1. cbn [deref]. rewrite bind_ret. exact E2.
Qed.
