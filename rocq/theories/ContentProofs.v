(** setTextContent on the states clients reach; normalize on trees without
    adjacent texts; isEqualNode. *)
From Coq Require Import List Arith NArith Bool Lia ZifyBool ZifyNat ZifyN.
From Verif Require Import Base StringModel HeapModel HeapSpec HeapInv HeapExec HeapTree HeapLoops HeapFrame HeapOps HeapCreate
  HistModel HistProofs TreeSpec TreeProofs WalkModel WalkSpec WalkProofs WalkText WalkReach WalkMore CharDataModel ContentModel ContentSpec HeapContent.
Import ListNotations.
Local Open Scope dom_scope.

Lemma ch_children : forall h ch, wfT h ch -> forall p, live h p -> children h p (ch p).
Proof. intros h ch WT p L. destruct (wfT_consistent _ _ WT p L) as (n & A & B & _). exists n. auto. Qed.

Lemma one_text : forall s p t np nt v, linked s -> s_heap s p = Some np -> holds_text (n_type np) -> children (s_heap s) p [t] ->
  s_heap s t = Some nt -> n_type nt = TEXT -> n_value nt = v -> children (s_heap s) t [] -> get_text_content p s = Ok v s.
Proof.
  intros s p t np nt v L Hp TP C Ht TT TV CT.
  assert (O : order (s_heap s) p [p; t]).
  { apply (order_node (s_heap s) p [t] [[t]]); auto. constructor; [|constructor]. apply (order_node (s_heap s) t [] []); auto. }
  destruct v as [b|].
  - assert (TX : texts (s_heap s) [t] [b]) by (eapply tx_text; eauto; constructor).
    rewrite (containers_text s L p np [t] [b] Hp) by (auto; destruct TP as [E|[E|E]]; auto).
    simpl. rewrite app_nil_r. reflexivity.
  - assert (TX : texts (s_heap s) [t] []) by (eapply tx_other; eauto; constructor).
    rewrite (containers_text s L p np [t] [] Hp) by (auto; destruct TP as [E|[E|E]]; auto). reflexivity.
Qed.

Lemma set_text_ok : forall k s g p np v, reach k s g -> short k -> usable_by g p -> s_heap s p = Some np -> holds_text (n_type np) ->
  ~ read_only (s_heap s) p -> exists t s', set_text_content p v s = Ok tt s' /\ retexted s g p t v s'.
Proof.
  intros k s g p np v R SH [UH UU] Hp TP RO. destruct (reach_good _ _ _ R SH) as [[ch W] AG].
  pose proof W as (WL & WT & WO & WR).
  assert (RP : (n_ref np > 0)%N). { rewrite (ag_ref _ _ _ AG _ _ Hp). exact UH. }
  destruct (set_text_plain_spec s ch p np v W Hp TP RP) as (s' & ch' & E & TS); auto.
  { intros S. rewrite (ag_used _ _ _ AG _ _ Hp S) in UU. discriminate. }
  { apply (reach_counted k s g R SH). }
  exists (s_nxt s), s'. split.
  { unfold set_text_content. rewrite (bind_ok _ _ _ _ _ _ _ _ (load_ok _ _ _ Hp)). destruct TP as [X|[X|X]]; rewrite X; exact E. }
  destruct TS as [Q1 Q2 Q3 Q4 (nt & N1 & N2 & N3 & N4 & N5 & N6 & N7 & N8) Q6 Q7 Q8 Q9 Q10]. set (t := s_nxt s) in *.
  pose proof (wf_linked _ _ Q3) as LN. pose proof Q3 as (WL' & WT' & _).
  destruct (Q8 _ _ Hp RP) as (np' & Hp'). assert (NPT : p <> t) by congruence.
  destruct (Q7 _ _ Hp' NPT) as (m & M1 & M2 & M3 & M4). assert (m = np) by congruence; subst m.
  assert (CP : children (s_heap s') p [t]). { rewrite <- Q4. apply ch_children; auto. exists np'; auto. }
  assert (CT : children (s_heap s') t []). { rewrite <- N7. apply ch_children; auto. exists nt; auto. }
  constructor; auto.
  - intros (n & H). congruence.
  - exists nt. auto.
  - eapply one_text; eauto. rewrite M2. auto.
  - intros l c C I. assert (l = ch p). { eapply children_det; eauto. apply ch_children; auto. exists np; auto. } subst l.
    unfold parent_of. destruct (s_heap s' c) as [n|] eqn:H; auto. eauto.
  - intros j H. destruct (s_heap s j) as [n|] eqn:J.
    + apply (Q8 _ _ J). rewrite (ag_ref _ _ _ AG _ _ J). exact H.
    + unfold holds in H. rewrite (ag_dead _ _ _ AG _ J) in H. lia.
  - intros j l LJ NP NT C. rewrite (children_det _ _ _ _ C (ch_children _ _ WT j (ltac:(destruct C as (n & A & _); exists n; auto)))).
    rewrite <- (Q6 j LJ NP NT). apply ch_children; auto.
  - intros j [n J] D. destruct (s_heap s' j) eqn:J'. { exfalso. apply D. eexists; eauto. }
    destruct (Q9 _ _ J J') as [Z A]. split.
    + unfold holds. rewrite <- (ag_ref _ _ _ AG _ _ J). lia.
    + destruct A as [A|[A B]]; [left; unfold type_of; rewrite J; simpl; congruence|right; auto].
  - intros j n n' J J'. destruct (Nat.eq_dec j t) as [->|NE]; [congruence|].
    destruct (Q7 _ _ J' NE) as (m & A1 & A2 & A3 & A4). assert (m = n) by congruence; subst m. split; auto.
    intros X. destruct A4 as [(B1&B2&B3&B4&B5&B6&B7&B8&B9) [C D]].
    { destruct X as [X|X]; auto. left. rewrite (ag_ref _ _ _ AG _ _ J). exact X. }
    repeat split; auto.
Qed.

(** A read-only node with children refuses. *)
Lemma set_text_read_only : forall k s g p np c l v, reach k s g -> short k -> s_heap s p = Some np -> holds_text (n_type np) ->
  read_only (s_heap s) p -> children (s_heap s) p (c :: l) ->
  set_text_content p v s = Exc NO_MODIFICATION_ALLOWED_ERR s.
Proof.
  intros k s g p np c l v R SH Hp TP RO C. destruct (reach_good _ _ _ R SH) as [[ch W] AG]. pose proof W as (WL & WT & WO & WR).
  assert (CH : ch p = c :: l). { eapply children_det; eauto. apply ch_children; auto. exists np; auto. }
  destruct (wt_child _ _ WT p c) as (nc & np0 & Hc & Hp0 & TA & PC & PE). { rewrite CH; left; auto. }
  destruct (tree_exists _ _ _ WL WT c) as (t & Rt & Et). { exists nc; auto. }
  destruct (HeapRemoveOp.remove_child_spec0 s ch p c W (ex_intro _ np Hp)) with (t := t) as (o & FF & Q); auto.
  { exists nc. split; auto. split; auto. apply (reach_counted k s g R SH c); auto. }
  assert (o = Some NO_MODIFICATION_ALLOWED_ERR).
  { unfold remove_checks in FF. inversion FF as [|P1 e1 r1 X|P1 e1 r1 o1 _ F1]; subst.
    { destruct X as [X _]. unfold type_of in X. rewrite Hp in X. simpl in X. destruct TP as [Y|[Y|Y]]; congruence. }
    inversion F1 as [|P2 e2 r2 X|P2 e2 r2 o2 _ F2]; subst.
    { unfold parent_of in X. rewrite Hc in X. contradiction. }
    inversion F2 as [|P3 e3 r3 X|P3 e3 r3 o3 X F3]; subst; [auto|contradiction]. }
  subst o. unfold set_text_content. rewrite (bind_ok _ _ _ _ _ _ _ _ (load_ok _ _ _ Hp)).
  assert (E : set_text_content_plain p v s = Exc NO_MODIFICATION_ALLOWED_ERR s).
  { unfold set_text_content_plain. rewrite (bind_ok _ _ _ _ _ _ _ _ (load_ok _ _ _ Hp)).
    rewrite (proj1 (wt_ends _ _ WT _ _ Hp)), CH. unfold with_fuel. unfold bind at 1. unfold fuel_of. rewrite Nat.add_comm. cbn [plus hd_error clear_loop].
    rewrite (bind_ok _ _ _ _ _ _ _ _ (load_ok _ _ _ Hc)). unfold bind at 1. rewrite Q. reflexivity. }
  destruct TP as [X|[X|X]]; rewrite X; exact E.
Qed.

Lemma set_text_data : forall s p np v, s_heap s p = Some np -> n_type np = TEXT \/ n_type np = CDATA \/ n_type np = COMMENT ->
  set_text_content p v s = set_data p v s.
Proof.
  intros s p np v H T. unfold set_text_content. rewrite (bind_ok _ _ _ _ _ _ _ _ (load_ok _ _ _ H)).
  destruct T as [E|[E|E]]; rewrite E; reflexivity.
Qed.
Lemma set_text_none : forall s p np v, s_heap s p = Some np -> n_type np = DOCUMENT \/ n_type np = DOCTYPE ->
  set_text_content p v s = Ok tt s.
Proof.
  intros s p np v H T. unfold set_text_content. rewrite (bind_ok _ _ _ _ _ _ _ _ (load_ok _ _ _ H)).
  destruct T as [E|E]; rewrite E; reflexivity.
Qed.

(** ** normalize leaves normal trees alone *)
Section Normal.
  Variable s : st.
  Let h := s_heap s.

  Fixpoint calm (ts : list rose) : Prop :=
    match ts with
    | t :: ((u :: _) as r) => ~ (type_of h (root t) = Some TEXT /\ type_of h (root u) = Some TEXT) /\ calm r
    | _ => True
    end.
  Inductive quiet : rose -> Prop := quiet_T i ats ks : calm ks -> Forall quiet ks -> quiet (T i ats ks).

  Lemma normal_loop : forall f p ts t, tr h t -> Forall (tr h) ts -> Forall quiet ts -> chain h p (root t :: map root ts) -> calm (t :: ts) ->
    length (flat_map pre ts) < f -> normalize_loop f (root t) (hd_error (map root ts)) s = Ok tt s.
  Proof.
    induction f as [|f IH]; intros p ts t Rt FT FQ C CA LE; [lia|].
    destruct ts as [|u ts]; [reflexivity|].
    inversion FT as [|? ? Ru FT']; subst. inversion FQ as [|? ? Qu FQ']; subst.
    cbn [map chain] in C. destruct C as [(nt & T1 & T2 & T3 & T4) [(nu & U1 & U2 & U3 & U4) C]].
    cbn [map hd_error normalize_loop]. rewrite (bind_ok _ _ _ _ _ _ _ _ (load_ok _ _ _ U1)). rewrite (bind_ok _ _ _ _ _ _ _ _ (load_ok _ _ _ T1)).
    cbn [calm] in CA. destruct CA as [N CA].
    assert (EB : ntype_eqb (n_type nu) TEXT && ntype_eqb (n_type nt) TEXT = false).
    { destruct (ntype_eqb (n_type nu) TEXT) eqn:A; auto. destruct (ntype_eqb (n_type nt) TEXT) eqn:B; auto. exfalso. apply N.
      apply ntype_eqb_eq in A, B. unfold type_of. rewrite T1, U1. simpl. split; congruence. }
    rewrite EB.
    assert (IN : when (negb (ntype_eqb (n_type nu) TEXT))
              (match n_first nu with
               | None => ret tt
               | Some q => nq <- load q ;; normalize_loop f q (n_next nq)
               end) s = Ok tt s).
    { destruct (ntype_eqb (n_type nu) TEXT); [reflexivity|]. cbn [negb when].
      destruct u as [i ats ks]. cbn [root] in *. destruct (tr_inv _ _ _ _ Ru) as (m & M1 & M2 & M3 & M4 & M5 & M6).
      assert (m = nu) by (unfold h in *; congruence); subst m. rewrite M2.
      inversion Qu as [? ? ? CK FK]; subst. destruct ks as [|w ks]; [reflexivity|]. cbn [map hd_error].
      pose proof M4 as M4'. cbn [map chain] in M4'. destruct M4' as [(nw & W1 & W2 & W3 & W4) _].
      rewrite (bind_ok _ _ _ _ _ _ _ _ (load_ok _ _ _ W1)). rewrite W4.
      inversion M6; subst. inversion FK; subst. apply (IH i); auto.
      cbn [flat_map pre length app] in LE. rewrite !app_length in LE. lia. }
    rewrite (bind_ok _ _ _ _ _ _ _ _ IN). rewrite (bind_ok _ _ _ _ _ _ _ _ (load_ok _ _ _ U1)). rewrite U4.
    apply (IH p); auto.
    - cbn [chain map]. split; eauto 10.
    - cbn [flat_map] in LE. rewrite app_length in LE. destruct u. cbn [pre length] in LE. lia.
  Qed.
End Normal.

Lemma normal_quiet : forall s t, tr (s_heap s) t ->
  (forall p l, In p (pre t) -> children (s_heap s) p l -> no_adjacent_text (s_heap s) l) -> quiet s t.
Proof.
  intros s t. induction t as [i ats ks _ IH] using rose_ind2. intros R N. constructor.
  - specialize (N i (map root ks) (or_introl eq_refl) (tr_children _ _ _ _ R)). clear - N.
    induction ks as [|t ks IH]; simpl; auto. destruct ks as [|u ks]; auto. split.
    + apply (N [] (root t) (root u) (map root ks) eq_refl).
    + apply IH. intros a x y b E. apply (N (root t :: a) x y b). simpl. simpl in E. rewrite E. reflexivity.
  - destruct (tr_inv _ _ _ _ R) as (n & _ & _ & _ & _ & _ & F). rewrite Forall_forall in *. intros u U. apply IH; auto.
    intros p l P. apply N. simpl. right. apply in_flat_map. eauto.
Qed.

Lemma normalize_normal : forall s i, linked s -> live (s_heap s) i ->
  (forall p l, anc (s_heap s) i p -> children (s_heap s) p l -> no_adjacent_text (s_heap s) l) ->
  normalize i s = Ok tt s.
Proof.
  intros s i L LI N. destruct (linked_tree s L i LI) as (t & R & E). 
  assert (Q : quiet s t).
  { apply normal_quiet; auto. intros p l P. apply N. rewrite <- E. eapply tr_anc; eauto. }
  assert (LEN : length (pre t) <= s_nxt s). { apply (tr_size s L t R). }
  destruct t as [j ats ks]. cbn [root] in E. subst j. destruct (tr_inv _ _ _ _ R) as (n & A & B & _ & C & _ & F).
  unfold normalize, with_fuel. rewrite (bind_ok _ _ _ _ _ _ _ _ (load_ok _ _ _ A)). rewrite B. destruct ks as [|u ks]; [reflexivity|].
  cbn [map hd_error]. pose proof C as C'. cbn [map chain] in C'. destruct C' as [(nu & U1 & U2 & U3 & U4) _].
  rewrite (bind_ok _ _ _ _ _ _ _ _ (load_ok _ _ _ U1)). rewrite U4. inversion F; subst. inversion Q as [? ? ? CA FQ]; subst. inversion FQ; subst.
  apply (normal_loop s _ i ks u); auto. cbn [pre flat_map length] in LEN. rewrite app_length in LEN. unfold fuel_of. nia.
Qed.

(** ** isEqualNode *)
Lemma string_eq_iff : forall a b, string_eq a b = true <-> no_null a = no_null b.
Proof.
  intros a b. unfold string_eq. rewrite StringProofs.string_isequal_iff. destruct a, b; reflexivity.
Qed.
Lemma string_eq_refl : forall a, string_eq a a = true.
Proof. intros a. apply string_eq_iff. reflexivity. Qed.

Lemma equal_elements : forall s i j n m, linked s -> s_heap s i = Some n -> s_heap s j = Some m -> n_type n = ELEMENT -> n_type m = ELEMENT ->
  is_equal i j s = Ok (Nat.eqb i j) s.
Proof.
  intros s i j n m L Hi Hj Ti Tj. unfold is_equal.
  rewrite (bind_ok _ _ _ _ _ _ _ _ (load_ok _ _ _ Hi)), (bind_ok _ _ _ _ _ _ _ _ (load_ok _ _ _ Hj)).
  destruct (ln_owner _ L _ _ Hi) as [d D]; [congruence|]. destruct (ln_owner _ L _ _ Hj) as [d' D']; [congruence|].
  rewrite Ti, Tj, D, D'. cbn [ntype_eqb negb].
  destruct (Nat.eqb_spec i j) as [->|NE].
  - assert (m = n) by congruence; subst m. rewrite bind_ret, !string_eq_refl. reflexivity.
  - rewrite bind_ret. destruct (string_eq (n_name n) (n_name m)); [|reflexivity].
    destruct (string_eq (n_prefix n) (n_prefix m)); [|reflexivity].
    destruct (string_eq (n_ns n) (n_ns m)); [|reflexivity].
    destruct (string_eq (n_value n) (n_value m)); reflexivity.
Qed.

Lemma unlike_nodes : forall s i j n m, linked s -> s_heap s i = Some n -> s_heap s j = Some m -> n_type n <> DOCTYPE -> ~ same_fields n m ->
  is_equal i j s = Ok false s.
Proof.
  intros s i j n m L Hi Hj ND NS. unfold is_equal.
  rewrite (bind_ok _ _ _ _ _ _ _ _ (load_ok _ _ _ Hi)), (bind_ok _ _ _ _ _ _ _ _ (load_ok _ _ _ Hj)).
  destruct (ntype_eqb (n_type n) (n_type m)) eqn:T; [|reflexivity]. apply ntype_eqb_eq in T. cbn [negb].
  destruct (ln_owner _ L _ _ Hi) as [d D]; [congruence|]. destruct (ln_owner _ L _ _ Hj) as [d' D']; [congruence|].
  rewrite D, D', bind_ret.
  destruct (string_eq (n_name n) (n_name m)) eqn:E1; [|reflexivity].
  destruct (string_eq (n_prefix n) (n_prefix m)) eqn:E2; [|reflexivity].
  destruct (string_eq (n_ns n) (n_ns m)) eqn:E3; [|reflexivity].
  destruct (string_eq (n_value n) (n_value m)) eqn:E4; [|reflexivity].
  apply string_eq_iff in E1, E2, E3, E4. exfalso. apply NS. repeat split; auto.
Qed.

Lemma alike_nodes : forall s i j n m, linked s -> s_heap s i = Some n -> s_heap s j = Some m -> n_type n <> DOCTYPE -> n_type n <> ELEMENT ->
  same_fields n m -> is_equal i j s = Bad NullDeref.
Proof.
  intros s i j n m L Hi Hj ND NE (T & E1 & E2 & E3 & E4). unfold is_equal.
  rewrite (bind_ok _ _ _ _ _ _ _ _ (load_ok _ _ _ Hi)), (bind_ok _ _ _ _ _ _ _ _ (load_ok _ _ _ Hj)).
  rewrite <- T. assert (X : ntype_eqb (n_type n) (n_type n) = true) by (apply ntype_eqb_eq; auto). rewrite X. cbn [negb].
  destruct (ln_owner _ L _ _ Hi) as [d D]; [congruence|]. destruct (ln_owner _ L _ _ Hj) as [d' D']; [congruence|].
  rewrite D, D', bind_ret. apply string_eq_iff in E1, E2, E3, E4. rewrite E1, E2, E3, E4. cbn [negb].
  apply ntype_eqb_neq in NE. rewrite NE. reflexivity.
Qed.
