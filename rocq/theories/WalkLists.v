(** Node lists and HTML collections: the loops count and return exactly the
    selected nodes of the list they walk over. *)
From Coq Require Import List Arith NArith Bool Lia ZifyBool ZifyNat ZifyN.
From Verif Require Import Base HeapModel HeapSpec HeapInv HeapExec HeapTree HeapInsert HeapCreate HistModel TreeSpec StringModel StringProofs
  WalkModel WalkSpec WalkProofs.
Import ListNotations.
Local Open Scope dom_scope.

(** Selection by a boolean on nodes. *)
Definition selb (h : heap) (P : node -> bool) (i : id) : bool := match h i with Some n => P n | None => false end.

Lemma picks_filter : forall (A : Type) (P : A -> Prop) (b : A -> bool) l k,
  (forall x, In x l -> (b x = true <-> P x)) -> (picks P l k <-> k = filter b l).
Proof.
  intros A P b l. induction l as [|x l]; intros k H.
  - split; intros E; [inversion E; auto|subst; constructor].
  - assert (H' : forall y, In y l -> (b y = true <-> P y)) by (intros; apply H; right; auto).
    simpl. destruct (b x) eqn:B.
    + assert (P x) by (apply H; [left|]; auto). split; intros E.
      * inversion E; subst; [|tauto]. f_equal. apply IHl; auto.
      * subst. constructor; auto. apply IHl; auto.
    + assert (NP : ~ P x) by (intros Q; apply H in Q; [congruence|left; auto]). split; intros E.
      * inversion E; subst; [tauto|]. apply IHl; auto.
      * subst. apply picks_no; auto. apply IHl; auto.
Qed.

Lemma got_answered' : forall s, counted s -> forall o s', got s s' o -> answered s o s'.
Proof.
  intros s CO o s' G. destruct o as [v|]; simpl in G.
  - destruct G as (n & H & ->). split; [reflexivity|]. split; [reflexivity|]. intros j.
    change (s_heap (withh s (hmod (s_heap s) v ref_up))) with (hmod (s_heap s) v ref_up).
    destruct (s_heap s j) as [m|] eqn:E; [|apply hmod_none; auto]. rewrite (hmod_get _ _ _ _ _ E). unfold oid_eqb, opt_eqb. f_equal.
    rewrite Nat.eqb_sym. destruct (Nat.eqb v j) eqn:Q; auto.
    unfold ref_up. f_equal. unfold u32. rewrite N.mod_small; auto. pose proof (CO _ _ E). unfold two32 in *. lia.
  - subst. split; auto. split; auto. intros j. destruct (s_heap s j); reflexivity.
Qed.

Lemma ref_opt_answered : forall s o, counted s -> (forall i, o = Some i -> live (s_heap s) i) ->
  exists s', ref_opt o s = Ok o s' /\ answered s o s'.
Proof.
  intros s o CO H. destruct (ref_opt_ok s o H) as (s' & E & G). exists s'. split; auto. apply got_answered'; auto.
Qed.

(** ** String tests *)
Lemma isequal_iff : forall a b, isequal a b = true <-> no_null a = no_null b.
Proof.
  intros a b. unfold isequal. rewrite string_isequal_iff. destruct a, b; simpl; tauto.
Qed.

Lemma caseless_loop_iff : forall a b, length a = length b -> (caseless_loop a b = true <-> map dolower a = map dolower b).
Proof.
  induction a; destruct b; simpl; intros E; try discriminate; [tauto|].
  destruct (N.eqb_spec (dolower a) (dolower n)) as [Q|Q].
  - rewrite IHa by lia. rewrite Q. split; intros X; [congruence|inversion X; auto].
  - split; [discriminate|]. intros X. inversion X. congruence.
Qed.

Lemma dolower_fold : forall b, map dolower b = fold_case true b.
Proof.
  intros b. unfold fold_case. apply map_ext. intros c. unfold dolower.
  destruct ((65 <=? c) && (c <=? 90))%N eqn:E; lia.
Qed.

Lemma caseless_iff : forall a b, caseless_isequal a b = true <-> fold_case true (no_null a) = fold_case true (no_null b).
Proof.
  intros a b. unfold caseless_isequal, string_caseless_isequal.
  assert (EA : d_bytes (or_empty (dstring a)) = no_null a) by (destruct a; auto).
  assert (EB : d_bytes (or_empty (dstring b)) = no_null b) by (destruct b; auto).
  assert (IA : d_interned (or_empty (dstring a)) = false) by (destruct a; auto).
  rewrite IA, EA, EB. simpl andb. cbv iota. rewrite <- !dolower_fold.
  destruct (Nat.eqb_spec (length (no_null a)) (length (no_null b))) as [E|E]; simpl.
  - apply caseless_loop_iff; auto.
  - split; [discriminate|]. intros X. exfalso. apply E. apply (f_equal (@length N)) in X. rewrite !map_length in X. auto.
Qed.

Definition eq_of (caseless : bool) := if caseless then caseless_isequal else isequal.
Lemma eq_of_iff : forall c a b, eq_of c a b = true <-> fold_case c (no_null a) = fold_case c (no_null b).
Proof. intros [|] a b; simpl. - apply caseless_iff. - apply isequal_iff. Qed.

Lemma star_iff : forall o, star o = true <-> o = Some [42%N].
Proof.
  intros [[|c [|? ?]]|]; simpl; split; intros E; try discriminate.
  - apply N.eqb_eq in E. subst; auto.
  - inversion E; subst; auto.
Qed.

Lemma element_iff : forall n, element_node n = true <-> n_type n = ELEMENT.
Proof. intros n. unfold element_node. split; intros E; [apply ntype_eqb_eq; auto|rewrite E; reflexivity]. Qed.

Lemma name_is_iff : forall c n w, name_is (eq_of c) n w = true <->
  exists b, n_name n = Some b /\ fold_case c b = fold_case c (no_null w).
Proof.
  intros c n w. unfold name_is. destruct (n_name n) as [b|]; simpl.
  - rewrite (eq_of_iff c (Some b) w). simpl. split; [eauto|]. intros (b' & E & F). inversion E; subst; auto.
  - split; [discriminate|]. intros (b & E & _). discriminate.
Qed.

Lemma by_name_counts : forall c root name n,
  (len_counts (list_by_name c root name) n = true <-> has_tag c name n) /\
  item_counts (list_by_name c root name) n = len_counts (list_by_name c root name) n.
Proof.
  intros c root name n.
  assert (E : len_counts (list_by_name c root name) n = (star (Some name) || name_is (eq_of c) n (Some name)) && element_node n)
    by (destruct c; reflexivity).
  split; [|destruct c; reflexivity]. rewrite E. rewrite andb_true_iff, orb_true_iff, element_iff, star_iff, name_is_iff.
  unfold has_tag. simpl no_null. split.
  - intros [[A|A] B]; (split; [exact B|]); [left; inversion A; auto|right; exact A].
  - intros [A [B|B]]; (split; [|exact A]); [left; rewrite B; auto|right; exact B].
Qed.

Lemma by_ns_counts : forall c root ns local n,
  (len_counts (list_by_ns c root ns local) n = true <-> has_ns_tag c ns local n) /\
  (no_null ns <> [] -> item_counts (list_by_ns c root ns local) n = len_counts (list_by_ns c root ns local) n).
Proof.
  intros c root ns local n.
  assert (E : len_counts (list_by_ns c root ns local) n =
     (star ns || eq_of c (n_ns n) ns) && (star local || name_is (eq_of c) n local) && element_node n) by (destruct c; reflexivity).
  assert (E' : item_counts (list_by_ns c root ns local) n =
     (star ns || (negb (is_none (n_ns n)) && eq_of c (n_ns n) ns)) && (star local || name_is (eq_of c) n local) && element_node n) by (destruct c; reflexivity).
  split.
  - rewrite E. rewrite !andb_true_iff, !orb_true_iff, element_iff, !star_iff, name_is_iff, eq_of_iff. unfold has_ns_tag. tauto.
  - intros NE. rewrite E, E'. destruct (n_ns n) as [b|] eqn:NS; [reflexivity|]. simpl is_none.
    assert (Q : eq_of c None ns = false).
    { destruct (eq_of c None ns) eqn:Q; auto. apply eq_of_iff in Q. simpl no_null in Q. exfalso. apply NE.
      destruct (no_null ns); auto. destruct c; simpl in Q; discriminate. }
    rewrite Q. reflexivity.
Qed.

(** ** The loops over any list of nodes *)
Section Loops.
  Variables (s : st) (l : nodelist) (ds : list id).
  Hypothesis LIVE : forall x, In x ds -> live (s_heap s) x.
  Hypothesis NEXT : forall a x b, ds = a ++ x :: b -> list_next l x s = Ok (hd_error b) s.

  Lemma live_at : forall a x b, ds = a ++ x :: b -> exists n, s_heap s x = Some n.
  Proof. intros a x b E. apply LIVE. rewrite E. apply in_or_app. right; left; auto. Qed.

  Lemma length_loop_ok : forall b a f len, ds = a ++ b -> length b <= f -> (len < two32)%N ->
    length_loop f l (hd_error b) len s =
    Ok (u32 (len + N.of_nat (length (filter (selb (s_heap s) (len_counts l)) b)))) s.
  Proof.
    induction b as [|x b]; intros a f len E F B.
    - simpl. destruct f; simpl; rewrite N.add_0_r; unfold u32, two32 in *; rewrite N.mod_small; auto.
    - destruct f; [simpl in F; lia|]. cbn [length_loop hd_error].
      destruct (live_at _ _ _ E) as [n Hn]. rewrite (bind_ok _ _ _ _ _ _ _ _ (load_ok _ _ _ Hn)).
      rewrite (bind_ok _ _ _ _ _ _ _ _ (NEXT _ _ _ E)).
      rewrite (IHb (a ++ [x])).
      + assert (SX : selb (s_heap s) (len_counts l) x = len_counts l n) by (unfold selb; rewrite Hn; reflexivity).
        cbn [filter]. rewrite SX. destruct (len_counts l n); [|reflexivity].
        cbn [length]. f_equal. unfold u32. rewrite N.add_mod_idemp_l by discriminate. f_equal. lia.
      + rewrite <- app_assoc. auto.
      + simpl in F. lia.
      + destruct (len_counts l n); auto. unfold u32, two32. apply N.mod_lt. discriminate.
  Qed.

  Lemma item_loop_ok : forall b a f idx count, ds = a ++ b -> length b <= f ->
    (count + N.of_nat (length (filter (selb (s_heap s) (item_counts l)) b)) < two32)%N ->
    (count <= idx)%N -> (idx + 1 < two32)%N ->
    item_loop f l idx (hd_error b) count s =
    Ok (nth_error (filter (selb (s_heap s) (item_counts l)) b) (N.to_nat (idx - count))) s.
  Proof.
    induction b as [|x b]; intros a f idx count E F B C I.
    - destruct f; simpl; destruct (N.to_nat (idx - count)); reflexivity.
    - destruct f; [simpl in F; lia|]. cbn [item_loop hd_error].
      destruct (live_at _ _ _ E) as [n Hn]. rewrite (bind_ok _ _ _ _ _ _ _ _ (load_ok _ _ _ Hn)).
      assert (SX : selb (s_heap s) (item_counts l) x = item_counts l n) by (unfold selb; rewrite Hn; reflexivity).
      cbn [filter] in *. rewrite SX in *.
      assert (UI : u32 (idx + 1) = (idx + 1)%N) by (unfold u32, two32 in *; apply N.mod_small; auto).
      destruct (item_counts l n).
      + cbn [length] in B. assert (UC : u32 (count + 1) = (count + 1)%N) by (unfold u32, two32 in *; apply N.mod_small; lia).
        cbv zeta. rewrite UI, UC. destruct (N.eqb_spec (idx + 1) (count + 1)) as [Q|Q].
        * replace (N.to_nat (idx - count)) with 0 by lia. reflexivity.
        * rewrite (bind_ok _ _ _ _ _ _ _ _ (NEXT _ _ _ E)). rewrite (IHb (a ++ [x])).
          -- replace (N.to_nat (idx - count)) with (S (N.to_nat (idx - (count + 1)))) by lia. reflexivity.
          -- rewrite <- app_assoc. auto.
          -- simpl in F. lia.
          -- lia.
          -- lia.
          -- auto.
      + cbv zeta. rewrite UI. destruct (N.eqb_spec (idx + 1) count) as [Q|Q]; [lia|].
        rewrite (bind_ok _ _ _ _ _ _ _ _ (NEXT _ _ _ E)). apply (IHb (a ++ [x])); auto.
        * rewrite <- app_assoc. auto.
        * simpl in F. lia.
  Qed.

  (** Asking a child list for the item past the largest index. *)
  Lemma item_loop_max : nl_type l = CHILDREN -> forall b a f count, ds = a ++ b -> length b <= f ->
    (count + N.of_nat (length b) < two32)%N ->
    item_loop f l (two32 - 1) (hd_error b) count s = Ok None s.
  Proof.
    intros TC. induction b as [|x b]; intros a f count E F B.
    - destruct f; reflexivity.
    - destruct f; [simpl in F; lia|]. cbn [item_loop hd_error].
      destruct (live_at _ _ _ E) as [n Hn]. rewrite (bind_ok _ _ _ _ _ _ _ _ (load_ok _ _ _ Hn)).
      assert (IC : item_counts l n = true) by (unfold item_counts; rewrite TC; reflexivity). rewrite IC. cbv zeta.
      cbn [length] in B. assert (UC : u32 (count + 1) = (count + 1)%N) by (unfold u32, two32 in *; apply N.mod_small; lia).
      rewrite UC. change (u32 (two32 - 1 + 1)) with 0%N. destruct (N.eqb_spec 0 (count + 1)) as [Q|Q]; [lia|].
      rewrite (bind_ok _ _ _ _ _ _ _ _ (NEXT _ _ _ E)). apply (IHb (a ++ [x])); auto.
      + rewrite <- app_assoc. auto. + simpl in F. lia. + lia.
  Qed.
End Loops.

(** ** The lists *)
Section Lists.
  Variable s : st.
  Hypothesis L : linked s.
  Hypothesis CO : counted s.
  Let h := s_heap s.

  Lemma nth_filter_live : forall P ds i x, (forall x, In x ds -> live h x) -> nth_error (filter P ds) i = Some x -> live h x.
  Proof. intros P ds i x LV E. apply nth_error_In in E. apply filter_In in E. apply LV. tauto. Qed.

  (** Children. *)
  Lemma children_next : forall root l a x b, consistent_children h root l -> l = a ++ x :: b ->
    list_next (list_children root) x s = Ok (hd_error b) s.
  Proof.
    intros root l a x b CC E. destruct CC as (n & A & F & B & ND & M).
    destruct (chain_of_fwd _ root _ _ F) as [C _]. { intros c I. apply M; auto. }
    subst l. clear - C. revert C. induction a as [|y a]; intros C.
    - cbn [app chain] in C. destruct C as [(n & A1 & A2 & A3 & A4) _]. unfold list_next.
      rewrite (bind_ok _ _ _ _ _ _ _ _ (load_ok _ _ _ A1)). simpl. rewrite A4. reflexivity.
    - apply IHa. cbn [app chain] in C. tauto.
  Qed.

  Lemma children_size : forall root l, consistent_children h root l -> length l <= s_nxt s.
  Proof.
    intros root l (n & A & F & B & ND & M). rewrite <- (seq_length (s_nxt s) 0). apply NoDup_incl_length; auto.
    intros j I. apply M in I. destruct I as (m & I & _). apply in_seq. pose proof (linked_wfL _ L _ _ I). lia.
  Qed.

  Lemma filter_all : forall (P : id -> bool) l, (forall x, In x l -> P x = true) -> filter P l = l.
  Proof. induction l; simpl; intros H; auto. rewrite H by auto. f_equal. auto. Qed.

  Theorem children_list : forall root l, children h root l -> (N.of_nat (length l) < two32)%N ->
    list_length (list_children root) s = Ok (N.of_nat (length l)) s /\
    forall index, (index < two32)%N -> exists s',
      list_item (list_children root) index s = Ok (nth_error l (N.to_nat index)) s' /\
      answered s (nth_error l (N.to_nat index)) s'.
  Proof.
    intros root l C B. assert (LR : live h root) by (destruct C as (n & A & _); exists n; auto).
    destruct (ln_lists _ L _ LR) as (l' & CC).
    assert (l = l').
    { destruct C as (n & A & F). destruct CC as (m & A' & F' & _). assert (m = n) by (unfold h in *; congruence); subst. eapply fwd_det; eauto. }
    subst l'. destruct C as (n & A & F).
    assert (LV : forall x, In x l -> live h x).
    { destruct CC as (m & _ & _ & _ & _ & M). intros x I. apply M in I. destruct I as (mx & I & _). exists mx; auto. }
    assert (HD : n_first n = hd_error l). { inversion F; auto. }
    assert (NX : forall a x b, l = a ++ x :: b -> list_next (list_children root) x s = Ok (hd_error b) s).
    { intros. eapply children_next; eauto. }
    pose proof (children_size _ _ CC) as SZ.
    assert (FL : filter (selb h (len_counts (list_children root))) l = l).
    { apply filter_all. intros x I. destruct (LV _ I) as [m Hm]. unfold selb. rewrite Hm. reflexivity. }
    assert (FI : filter (selb h (item_counts (list_children root))) l = l).
    { apply filter_all. intros x I. destruct (LV _ I) as [m Hm]. unfold selb. rewrite Hm. reflexivity. }
    split.
    - unfold list_length. rewrite (bind_ok _ _ _ _ _ _ _ _ (load_ok _ _ _ A)). unfold with_fuel. rewrite HD.
      rewrite (length_loop_ok s (list_children root) l LV NX l []); auto.
      + fold h. rewrite FL. simpl. f_equal. unfold u32. apply N.mod_small. auto.
      + unfold fuel_of. lia.
      + reflexivity.
    - intros index BI.
      assert (E : with_fuel (fun f => item_loop f (list_children root) index (n_first n) 0) s = Ok (nth_error l (N.to_nat index)) s).
      { unfold with_fuel. rewrite HD. destruct (N.eq_dec index (two32 - 1)) as [->|NE].
        - rewrite (item_loop_max s (list_children root) l LV NX eq_refl l []); auto.
          all: try (unfold fuel_of; lia). f_equal. symmetry. apply nth_error_None. lia.
        - rewrite (item_loop_ok s (list_children root) l LV NX l []); auto.
          all: fold h; rewrite ?FI; try (unfold fuel_of; lia). rewrite N.sub_0_r. reflexivity. }
      unfold list_item. rewrite (bind_ok _ _ _ _ _ _ _ _ (load_ok _ _ _ A)). rewrite (bind_ok _ _ _ _ _ _ _ _ E).
      apply ref_opt_answered; auto. intros i Q. apply LV. eapply nth_error_In; eauto.
  Qed.

  (** Descendants. *)
  Lemma desc_of : forall root ds, order h root (root :: ds) -> exists ats ks, tr h (T root ats ks) /\ ds = flat_map pre ks /\
    ~ In root ds /\ length ds < s_nxt s.
  Proof.
    intros root ds O. assert (LR : live h root) by (inversion O as [? ? ? (n & A & _) ?]; exists n; auto).
    destruct (linked_tree _ L _ LR) as ([i ats ks] & R & E). simpl in E. subst i. exists ats, ks.
    assert (P : root :: ds = pre (T root ats ks)) by (apply (order_pre _ _ R); auto).
    simpl in P. inversion P as [Q]. pose proof (tr_nodup _ L _ R) as ND. pose proof (tr_size _ L _ R) as SZ.
    simpl in ND, SZ. inversion ND; subst. split; auto.
  Qed.

  Lemma tree_list : forall l ds kl ki, nl_type l <> CHILDREN -> order h (nl_root l) (nl_root l :: ds) ->
    kl = filter (selb h (len_counts l)) ds -> ki = filter (selb h (item_counts l)) ds ->
    (N.of_nat (length ds) < two32)%N ->
    list_length l s = Ok (N.of_nat (length kl)) s /\
    forall index, (index + 1 < two32)%N -> exists s',
      list_item l index s = Ok (nth_error ki (N.to_nat index)) s' /\ answered s (nth_error ki (N.to_nat index)) s'.
  Proof.
    intros l ds kl ki NC O -> -> B. destruct (desc_of _ _ O) as (ats & ks & R & E & NT & SZ).
    destruct (tr_inv _ _ _ _ R) as (n & A & E1 & E2 & C & ND & F).
    assert (LV : forall x, In x ds -> live h x).
    { intros x I. apply (tr_live _ _ R). simpl. right. rewrite <- E. auto. }
    assert (NX : forall a x b, ds = a ++ x :: b -> list_next l x s = Ok (hd_error b) s).
    { intros a x b Q. apply list_next_ok; auto. apply (pos_desc h (nl_root l) ats ks a x b); auto; congruence. }
    assert (HD : n_first n = hd_error ds).
    { rewrite E1, E. destruct ks as [|[? ? ?] ?]; reflexivity. }
    assert (FLEN : forall P, length (filter P ds) <= length ds).
    { intros P. clear. induction ds; simpl; auto. destruct (P a); simpl; lia. }
    split.
    - unfold list_length. rewrite (bind_ok _ _ _ _ _ _ _ _ (load_ok _ _ _ A)). unfold with_fuel. rewrite HD.
      rewrite (length_loop_ok s l ds LV NX ds []); auto.
      + simpl. f_equal. unfold u32. apply N.mod_small. fold h. pose proof (FLEN (selb h (len_counts l))). unfold two32 in *. lia.
      + unfold fuel_of. lia.
      + reflexivity.
    - intros index BI.
      assert (Q : with_fuel (fun f => item_loop f l index (n_first n) 0) s = Ok (nth_error (filter (selb h (item_counts l)) ds) (N.to_nat index)) s).
      { unfold with_fuel. rewrite HD. rewrite (item_loop_ok s l ds LV NX ds []); auto.
        - rewrite N.sub_0_r. reflexivity.
        - unfold fuel_of; lia.
        - fold h. pose proof (FLEN (selb h (item_counts l))). lia.
        - lia. }
      unfold list_item. rewrite (bind_ok _ _ _ _ _ _ _ _ (load_ok _ _ _ A)). rewrite (bind_ok _ _ _ _ _ _ _ _ Q).
      apply ref_opt_answered; auto. intros i I. eapply nth_filter_live; eauto.
  Qed.
End Lists.
