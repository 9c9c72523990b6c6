(** The namespace lookups against the namespaces in scope. *)
From Coq Require Import List Arith NArith Bool Lia.
From Verif Require Import Base HeapModel HeapSpec HeapInv HeapExec StringModel NameModel HistModel HistProofs WalkModel WalkSpec WalkProofs WalkReach WalkLists WalkFinds LookupModel LookupSpec.
Import ListNotations.
Local Open Scope dom_scope.
Ltac step H := rewrite (bind_ok _ _ _ _ _ _ _ _ H).

(** ** States that differ in counts *)
Definition same (h h' : heap) : Prop := forall j, option_map unreferenced (h' j) = option_map unreferenced (h j).
Lemma same_refl : forall h, same h h. Proof. intros h j. reflexivity. Qed.
Lemma same_sym : forall h h', same h h' -> same h' h. Proof. intros h h' K j. symmetry. apply K. Qed.
Lemma same_get : forall h h', same h h' -> forall j n, h j = Some n -> exists n', h' j = Some n' /\ unreferenced n' = unreferenced n.
Proof. intros h h' K j n H. specialize (K j). rewrite H in K. destruct (h' j) as [m|]; [|discriminate]. exists m. split; auto. cbn in K. congruence. Qed.
Lemma unref_parts : forall n m, unreferenced n = unreferenced m ->
  n_type n = n_type m /\ n_name n = n_name m /\ n_value n = n_value m /\ n_ns n = n_ns m /\ n_prefix n = n_prefix m /\ n_parent n = n_parent m /\ n_attrs n = n_attrs m.
Proof. intros n m E. destruct n, m. unfold unreferenced, set_ref in E. cbn in E. inversion E; subst. repeat split; reflexivity. Qed.
Lemma unref_links : forall n m, unreferenced n = unreferenced m -> links n = links m.
Proof. intros n m E. destruct n, m. unfold unreferenced, set_ref in E. cbn in E. inversion E; subst. reflexivity. Qed.
Lemma same_like : forall h h', same h h' -> like h h'.
Proof. intros h h' K j. specialize (K j). destruct (h' j), (h j); cbn in *; try discriminate; auto. f_equal. apply unref_links. congruence. Qed.
Lemma same_children : forall h h', same h h' -> forall p l, children h p l -> children h' p l.
Proof. intros h h' K. apply like_children. apply same_like. auto. Qed.
Lemma same_says : forall h h', same h h' -> forall a v, attr_says h a v -> attr_says h' a v.
Proof.
  intros h h' K a v [l vs C F]. apply (says_text _ _ l vs). { apply (same_children h); auto. }
  clear C. induction F; constructor; auto. destruct H as (n & A & B & C). destruct (same_get _ _ K _ _ A) as (m & A' & E).
  destruct (unref_parts _ _ E) as (E1 & E2 & E3 & _). exists m. split; auto. split; congruence.
Qed.
Lemma same_first : forall h h', same h h' -> forall x l a, first_named h x l a -> first_named h' x l a.
Proof.
  intros h h' K x l a F. induction F as [a n l H E|a n l y H NE F IH].
  - destruct (same_get _ _ K _ _ H) as (m & A' & U). destruct (unref_parts _ _ U) as (E1 & E2 & _). apply (fn_here _ _ _ m); auto. congruence.
  - destruct (same_get _ _ K _ _ H) as (m & A' & U). destruct (unref_parts _ _ U) as (E1 & E2 & _). apply (fn_next _ _ _ m); auto. congruence.
Qed.
Lemma same_has : forall h h', same h h' -> forall i x v, has_attr h i x v -> has_attr h' i x v.
Proof.
  intros h h' K i x v (n & a & A & B & C & D). destruct (same_get _ _ K _ _ A) as (m & A' & U).
  destruct (unref_parts _ _ U) as (E1 & _ & _ & _ & _ & _ & E7). exists m, a. split; auto. split; [congruence|].
  split; [rewrite E7; apply (same_first h); auto|apply (same_says h); auto].
Qed.
Ltac moved K H m A U := destruct (same_get _ _ K _ _ H) as (m & A & U);
  let E1 := fresh "E" in let E2 := fresh "E" in let E3 := fresh "E" in let E4 := fresh "E" in let E5 := fresh "E" in let E6 := fresh "E" in let E7 := fresh "E" in
  destruct (unref_parts _ _ U) as (E1 & E2 & E3 & E4 & E5 & E6 & E7).
Lemma same_default : forall h h', same h h' -> forall i r, default_ns h i r -> default_ns h' i r.
Proof.
  intros h h' K i r D. pose proof (same_sym _ _ K) as K'. induction D.
  - moved K H m A U. rewrite <- E2. apply dn_own; auto; congruence.
  - moved K H m A U. apply (dn_says _ _ m); try congruence. apply (same_has h); auto.
  - moved K H m A U. apply (dn_up _ _ m p); try congruence; auto. intros a F. apply (H2 a). rewrite <- E5. apply (same_first h'); auto.
  - moved K H m A U. apply (dn_top _ _ m); try congruence; auto. intros a F. apply (H2 a). rewrite <- E5. apply (same_first h'); auto.
  - moved K H m A U. apply (dn_over _ _ m p); try congruence; auto.
  - moved K H m A U. apply (dn_alone _ _ m); try congruence; auto.
Qed.
Lemma same_declares : forall h h', same h h' -> forall i p v, declares h i p v -> declares h' i p v.
Proof.
  intros h h' K i [x|] v D; [|apply (same_has h); auto]. destruct D as (n & a & na & A & B & C & D & F & G).
  moved K A m A' U. moved K C ma C' V. exists m, a, ma. split; [auto|]. split; [congruence|]. split; [auto|]. split; [congruence|]. split; [congruence|apply (same_says h); auto].
Qed.
Lemma same_declared : forall h h' n n' p, same h h' -> n_attrs n' = n_attrs n -> declared h n p -> declared h' n' p.
Proof.
  intros h h' n n' [x|] K E D; cbn in *.
  - destruct D as (a & na & A & B & C & D). moved K B m B' U. exists a, m. rewrite E. repeat split; auto; congruence.
  - destruct D as (a & F). exists a. rewrite E. apply (same_first h); auto.
Qed.
Lemma same_bears : forall n n' p, unreferenced n' = unreferenced n -> bears n' p -> bears n p.
Proof. intros n n' p U [A B]. destruct (unref_parts _ _ U) as (E1 & E2 & E3 & E4 & E5 & _). split; congruence. Qed.
Lemma same_stands : forall h h', same h h' -> forall p i r, stands_for h p i r -> stands_for h' p i r.
Proof.
  intros h h' K p i r D. pose proof (same_sym _ _ K) as K'. induction D.
  - moved K H m A U. apply (sf_own _ _ _ m); try congruence. apply (same_bears m n); auto.
  - moved K H m A U. apply (sf_says _ _ _ m); try congruence; [|apply (same_declares h); auto]. intros B. apply H1. apply (same_bears n m); auto.
  - moved K H m A U. apply (sf_up _ _ _ m q); try congruence; auto; [intros B; apply H1; apply (same_bears n m); auto|].
    intros B. apply H2. apply (same_declared h' h m n); auto.
  - moved K H m A U. apply (sf_top _ _ _ m); try congruence; auto; [intros B; apply H1; apply (same_bears n m); auto|].
    intros B. apply H2. apply (same_declared h' h m n); auto.
  - moved K H m A U. apply (sf_over _ _ _ m q); try congruence; auto.
  - moved K H m A U. apply (sf_alone _ _ _ m); try congruence; auto.
Qed.
Lemma same_nothing : forall h h', same h h' -> forall i, nothing_declared h i -> nothing_declared h' i.
Proof.
  intros h h' K i N e n a na A B C D. pose proof (same_sym _ _ K) as K'. moved K' B m B' U. moved K' D ma D' V.
  pose proof (like_anc _ _ (same_like _ _ K') _ _ A) as A'. destruct (N e m a ma A' B' ltac:(congruence) D') as (X & Y & Z).
  repeat split; congruence.
Qed.
Lemma same_plain : forall h h', same h h' -> plain_attributes h -> plain_attributes h'.
Proof.
  intros h h' K P a na l c A B C D. pose proof (same_sym _ _ K) as K'. moved K' A m A' U.
  pose proof (P a m l c A' ltac:(congruence) (same_children _ _ K' _ _ C) D) as T. rewrite (like_type _ _ (same_like _ _ K)). exact T.
Qed.

Lemma but_refl : forall s, but_counts s s. Proof. intros s. repeat split. Qed.
Lemma but_trans : forall a b c, but_counts a b -> but_counts b c -> but_counts a c.
Proof. intros a b c (A & B & C) (D & E & F). split; [congruence|]. split; [congruence|]. intros j. rewrite F. apply C. Qed.
Lemma but_linked : forall s s', but_counts s s' -> linked s -> linked s'.
Proof. intros s s' (A & B & C) L. apply (like_linked s s'); auto. apply same_like. exact C. Qed.
Lemma ref_but : forall s p, live (s_heap s) p -> exists s', node_ref p s = Ok tt s' /\ but_counts s s'.
Proof.
  intros s p (n & H). exists (withh s (hmod (s_heap s) p (fun n => set_ref (u32 (n_ref n + 1)) n))). split.
  - unfold node_ref. apply (upd_ok _ _ _ _ H).
  - split; [reflexivity|]. split; [reflexivity|]. intros j. cbn [s_heap withh]. unfold hmod. destruct (Nat.eqb j p) eqn:E.
    + apply Nat.eqb_eq in E. subst. rewrite H. reflexivity.
    + reflexivity.
Qed.

Lemma same_depth : forall h h', same h h' -> forall i d, depth h i d -> depth h' i d.
Proof.
  intros h h' K i d D. induction D.
  - moved K H m A U. apply (depth_top _ _ m); auto. congruence.
  - moved K H m A U. apply (depth_step _ _ m p); auto. congruence.
Qed.
Lemma off_up : forall h i n p, h i = Some n -> n_parent n = Some p -> off_attributes h i -> off_attributes h p.
Proof. intros h i n p H P O a m A. apply O. apply (anc_step _ _ _ n p); auto. Qed.
Lemma nothing_up : forall h i n p, h i = Some n -> n_parent n = Some p -> nothing_declared h i -> nothing_declared h p.
Proof. intros h i n p H P O e m a na A. apply O. apply (anc_step _ _ _ n p); auto. Qed.
Lemma depth_up : forall h i n p d, depth h i d -> h i = Some n -> n_parent n = Some p -> exists e, d = S e /\ depth h p e.
Proof.
  intros h i n p d D H P. inversion D as [? m A B|? m q e A B C]; subst; assert (m = n) by congruence; subst; [congruence|].
  assert (q = p) by congruence. subst. exists e. auto.
Qed.
Lemma attrs_live : forall s i n, linked s -> s_heap s i = Some n -> forall a, In a (n_attrs n) -> exists na, s_heap s a = Some na /\ n_type na = ATTRIBUTE.
Proof.
  intros s i n L H a I. pose proof (ln_attrs _ L _ _ _ H I) as Q. unfold type_of in Q. destruct (s_heap s a) as [na|] eqn:E; [|discriminate].
  exists na. split; auto. cbn in Q. congruence.
Qed.
Lemma attrs_live' : forall s i n, linked s -> s_heap s i = Some n -> forall a, In a (n_attrs n) -> live (s_heap s) a.
Proof. intros s i n L H a I. destruct (attrs_live s i n L H a I) as (na & A & _). exists na. auto. Qed.
Lemma xmlns_said : forall s i n v, linked s -> s_heap s i = Some n -> has_attr (s_heap s) i s_xmlns v ->
  exists a, find_attr s_xmlns (n_attrs n) s = Ok (Some a) s /\ attr_value a s = Ok v s.
Proof.
  intros s i n v L H (m & a & A & B & C & D). assert (m = n) by congruence; subst m.
  destruct (find_attr_ok s s_xmlns _ (attrs_live' s i n L H)) as [(b & X & Y & Z)|[X Y]]; [|exfalso; apply (X a); auto].
  assert (b = a) by (apply (first_named_det s s_xmlns (n_attrs n)); auto). subst b. exists a. split; auto.
  destruct (attrs_live s i n L H a X) as (na & NA & TA).
  destruct (attr_value_ok s L a na NA TA) as [(w & W1 & W2)|(W1 & _)]; [|exfalso; exact (W1 _ D)].
  rewrite W2. rewrite (attr_says_det s a w v W1 D). reflexivity.
Qed.
Lemma xmlns_unsaid : forall s i n, linked s -> s_heap s i = Some n -> (forall a, ~ first_named (s_heap s) s_xmlns (n_attrs n) a) ->
  find_attr s_xmlns (n_attrs n) s = Ok None s.
Proof.
  intros s i n L H N. destruct (find_attr_ok s s_xmlns _ (attrs_live' s i n L H)) as [(b & X & Y & Z)|[X Y]]; auto. exfalso. exact (N _ Y).
Qed.

(** Going up from a node that is not an element. *)
Definition upward {A} (f : id -> M st A) (z : A) (n : node) : M st A :=
  match n_type n with
  | ATTRIBUTE => match n_parent n with Some p => node_ref p ;;; f p | None => ret z end
  | _ => match n_parent n with Some p => f p | None => ret z end
  end.
Lemma upward_ok : forall A (f : id -> M st A) z s i n p (a : A), linked s -> s_heap s i = Some n -> n_parent n = Some p ->
  (forall s1, linked s1 -> but_counts s s1 -> exists s', f p s1 = Ok a s' /\ but_counts s1 s' /\ (off_attributes (s_heap s1) p -> s' = s1)) ->
  exists s', upward f z n s = Ok a s' /\ but_counts s s' /\ (off_attributes (s_heap s) i -> s' = s).
Proof.
  intros A f z s i n p a L H P R. assert (PL : live (s_heap s) p) by (apply (ln_parent _ L i n p); auto).
  destruct (ntype_eqb (n_type n) ATTRIBUTE) eqn:E.
  - apply ntype_eqb_eq in E. unfold upward. rewrite E, P. destruct (ref_but s p PL) as (s1 & R1 & B1). step R1.
    destruct (R s1 (but_linked _ _ B1 L) B1) as (s' & A1 & A2 & A3). exists s'. split; auto. split; [apply (but_trans _ s1); auto|].
    intros O. exfalso. exact (O i n (anc_refl _ _) H E).
  - apply ntype_eqb_neq in E. destruct (R s L (but_refl s)) as (s' & A1 & A2 & A3). exists s'. split; [|split; auto].
    + unfold upward. destruct (n_type n); try congruence; rewrite P; auto.
    + intros O. apply A3. apply (off_up _ i n p); auto.
Qed.
Lemma upward_none : forall A (f : id -> M st A) z s n, n_parent n = None -> upward f z n s = Ok z s.
Proof. intros A f z s n P. unfold upward. destruct (n_type n); rewrite P; reflexivity. Qed.

(** ** isDefaultNamespace *)
Definition answers (r : option (option bytes)) (ns : option bytes) : bool := match r with Some d => isequal d ns | None => false end.
Lemma default_other : forall f i ns s n, s_heap s i = Some n -> n_type n <> ELEMENT ->
  default_from (S f) i ns s = upward (fun p => default_from f p ns) false n s.
Proof. intros f i ns s n H T. cbn [default_from]. step (load_ok _ _ _ H). unfold upward. destruct (n_type n); congruence. Qed.
Lemma default_run : forall f s i d r, linked s -> depth (s_heap s) i d -> d < f -> default_ns (s_heap s) i r ->
  forall ns, exists s', default_from f i ns s = Ok (answers r ns) s' /\ but_counts s s' /\ (off_attributes (s_heap s) i -> s' = s).
Proof.
  induction f as [|f IH]; intros s i d r L D LT DN ns; [lia|]. destruct DN as [i n H T P|i n v H T P A|i n p r H T P A Q DN|i n H T P A Q|i n p r H T Q DN|i n H T Q].
  - exists s. split; [|split; [apply but_refl|auto]]. cbn [default_from]. step (load_ok _ _ _ H). rewrite T, P. reflexivity.
  - exists s. split; [|split; [apply but_refl|auto]]. cbn [default_from]. step (load_ok _ _ _ H). rewrite T.
    destruct (n_prefix n); [|congruence]. cbn [is_none]. destruct (xmlns_said _ _ _ _ L H A) as (a & F & V). step F. step V. reflexivity.
  - cbn [default_from]. destruct (depth_up _ _ _ _ _ D H Q) as (e & -> & DE). destruct (IH s p e r L DE ltac:(lia) DN ns) as (s' & A1 & A2 & A3).
    exists s'. split; [|split; [auto|intros O; apply A3; apply (off_up _ i n p); auto]]. step (load_ok _ _ _ H). rewrite T.
    destruct (n_prefix n); [|congruence]. cbn [is_none]. step (xmlns_unsaid _ _ _ L H A). rewrite Q. exact A1.
  - exists s. split; [|split; [apply but_refl|auto]]. cbn [default_from]. step (load_ok _ _ _ H). rewrite T.
    destruct (n_prefix n); [|congruence]. cbn [is_none]. step (xmlns_unsaid _ _ _ L H A). rewrite Q. reflexivity.
  - rewrite (default_other _ _ _ _ _ H T). destruct (depth_up _ _ _ _ _ D H Q) as (e & -> & DE).
    apply (upward_ok _ _ _ _ _ _ _ _ L H Q). intros s1 L1 B1. apply (IH s1 p e r L1); [|lia|].
    + apply (same_depth (s_heap s)); auto. exact (proj2 (proj2 B1)).
    + apply (same_default (s_heap s)); auto. exact (proj2 (proj2 B1)).
  - rewrite (default_other _ _ _ _ _ H T). exists s. split; [apply upward_none; auto|]. split; [apply but_refl|auto].
Qed.
Lemma default_ex : forall s, linked s -> plain_attributes (s_heap s) -> forall d i, depth (s_heap s) i d -> exists r, default_ns (s_heap s) i r.
Proof.
  intros s L PA. induction d as [|d IH]; intros i D.
  - inversion D as [? n H P|]; subst. destruct (ntype_eqb (n_type n) ELEMENT) eqn:T; [apply ntype_eqb_eq in T|apply ntype_eqb_neq in T; exists None; apply (dn_alone _ _ n); auto].
    destruct (n_prefix n) as [x|] eqn:X; [|exists (Some (n_ns n)); apply (dn_own _ _ n); auto].
    destruct (find_attr_ok s s_xmlns _ (attrs_live' s i n L H)) as [(b & B1 & B2 & B3)|[B1 B2]].
    + destruct (attrs_live s i n L H b B1) as (nb & NB & TB). destruct (attr_value_ok s L b nb NB TB) as [(w & W1 & W2)|(W1 & W2 & l & x' & W3 & W4 & W5)].
      * exists (Some (Some w)). apply (dn_says _ _ n); auto; [congruence|]. exists n, b. auto.
      * exfalso. pose proof (PA b nb l x' NB TB W3 W4). congruence.
    + exists None. apply (dn_top _ _ n); auto. congruence.
  - inversion D as [|? n p ? H P D']; subst. destruct (IH p D') as (r & R).
    destruct (ntype_eqb (n_type n) ELEMENT) eqn:T; [apply ntype_eqb_eq in T|apply ntype_eqb_neq in T; exists r; apply (dn_over _ _ n p); auto].
    destruct (n_prefix n) as [x|] eqn:X; [|exists (Some (n_ns n)); apply (dn_own _ _ n); auto].
    destruct (find_attr_ok s s_xmlns _ (attrs_live' s i n L H)) as [(b & B1 & B2 & B3)|[B1 B2]].
    + destruct (attrs_live s i n L H b B1) as (nb & NB & TB). destruct (attr_value_ok s L b nb NB TB) as [(w & W1 & W2)|(W1 & W2 & l & x' & W3 & W4 & W5)].
      * exists (Some (Some w)). apply (dn_says _ _ n); auto; [congruence|]. exists n, b. auto.
      * exfalso. pose proof (PA b nb l x' NB TB W3 W4). congruence.
    + exists r. apply (dn_up _ _ n p); auto. congruence.
Qed.

(** ** lookupNamespaceURI *)
Lemma find_ns_none : forall s k x l, (forall a, In a l -> exists na, s_heap s a = Some na /\ (n_ns na <> Some k \/ no_null (n_name na) <> x)) -> find_attr_ns k x l s = Ok None s.
Proof.
  intros s k x l. induction l as [|a l IH]; intros N; [reflexivity|]. cbn [find_attr_ns]. destruct (N a (or_introl eq_refl)) as (na & H & O). step (load_ok _ _ _ H).
  destruct (n_ns na) as [m|] eqn:M; cbn [is_none negb andb]; [|apply IH; intros; apply N; right; auto].
  destruct (isequal (Some k) (Some m)) eqn:E1; cbn [andb]; [|apply IH; intros; apply N; right; auto].
  destruct (isequal (Some x) (n_name na)) eqn:E2; [|apply IH; intros; apply N; right; auto].
  exfalso. apply isequal_iff in E1, E2. cbn in E1, E2. subst. destruct O as [O|O]; congruence.
Qed.
Lemma find_opt_none : forall s k p l, (forall a, In a l -> exists na, s_heap s a = Some na /\ n_ns na <> Some k) -> find_attr_ns_opt k p l s = Ok None s.
Proof.
  intros s k [x|] l N; [|reflexivity]. apply find_ns_none. intros a I. destruct (N a I) as (na & A & B). exists na. auto.
Qed.
Lemma bears_iff : forall n p, negb (is_none (n_ns n)) && isequal (n_prefix n) p = true <-> bears n p.
Proof.
  intros n p. unfold bears. rewrite andb_true_iff, isequal_iff. destruct (n_ns n); cbn; intuition congruence.
Qed.
Lemma bears_false : forall n p, ~ bears n p -> negb (is_none (n_ns n)) && isequal (n_prefix n) p = false.
Proof. intros n p B. destruct (negb (is_none (n_ns n)) && isequal (n_prefix n) p) eqn:E; auto. apply bears_iff in E. contradiction. Qed.
Lemma namespace_other : forall f i p s n, s_heap s i = Some n -> n_type n <> ELEMENT ->
  namespace_from (S f) i p s = upward (fun q => namespace_from f q p) None n s.
Proof. intros f i p s n H T. cbn [namespace_from]. step (load_ok _ _ _ H). unfold upward. destruct (n_type n); congruence. Qed.
(** An element that has no attribute in a namespace called "xmlns". *)
Lemma namespace_element : forall f i p s n, s_heap s i = Some n -> n_type n = ELEMENT -> ~ bears n p -> find_attr_ns_opt s_xmlns p (n_attrs n) s = Ok None s ->
  namespace_from (S f) i p s =
    (a <- find_attr s_xmlns (n_attrs n) ;; match a with Some a => v <- attr_value a ;; ret (Some v) | None => match n_parent n with Some q => namespace_from f q p | None => ret None end end) s.
Proof. intros f i p s n H T B F. cbn [namespace_from]. step (load_ok _ _ _ H). rewrite T, (bears_false _ _ B). step F. reflexivity. Qed.
Lemma namespace_own : forall f i p s n v, s_heap s i = Some n -> n_type n = ELEMENT -> bears n p -> n_ns n = Some v -> namespace_from (S f) i p s = Ok (Some v) s.
Proof.
  intros f i p s n v H T B V. cbn [namespace_from]. step (load_ok _ _ _ H). rewrite T. apply bears_iff in B. rewrite B, V. reflexivity.
Qed.

(** Without a prefix. *)
Lemma null_run : forall f s i d r, linked s -> depth (s_heap s) i d -> d < f -> stands_for (s_heap s) None i r ->
  exists s', namespace_from f i None s = Ok r s' /\ but_counts s s' /\ (off_attributes (s_heap s) i -> s' = s).
Proof.
  induction f as [|f IH]; intros s i d r L D LT DN; [lia|]. destruct DN as [i n v H T B V|i n v H T B A|i n p r H T B A Q DN|i n H T B A Q|i n p r H T Q DN|i n H T Q].
  - exists s. split; [apply (namespace_own _ _ _ _ n); auto|]. split; [apply but_refl|auto].
  - exists s. split; [|split; [apply but_refl|auto]]. rewrite (namespace_element _ _ _ _ _ H T B eq_refl).
    destruct (xmlns_said _ _ _ _ L H A) as (a & F & V). step F. step V. reflexivity.
  - destruct (depth_up _ _ _ _ _ D H Q) as (e & -> & DE). destruct (IH s p e r L DE ltac:(lia) DN) as (s' & A1 & A2 & A3).
    exists s'. split; [|split; [auto|intros O; apply A3; apply (off_up _ i n p); auto]]. rewrite (namespace_element _ _ _ _ _ H T B eq_refl).
    assert (U : forall a, ~ first_named (s_heap s) s_xmlns (n_attrs n) a) by (intros a F; apply A; exists a; auto).
    step (xmlns_unsaid _ _ _ L H U). rewrite Q. exact A1.
  - exists s. split; [|split; [apply but_refl|auto]]. rewrite (namespace_element _ _ _ _ _ H T B eq_refl).
    assert (U : forall a, ~ first_named (s_heap s) s_xmlns (n_attrs n) a) by (intros a F; apply A; exists a; auto).
    step (xmlns_unsaid _ _ _ L H U). rewrite Q. reflexivity.
  - rewrite (namespace_other _ _ _ _ _ H T). destruct (depth_up _ _ _ _ _ D H Q) as (e & -> & DE).
    apply (upward_ok _ _ _ _ _ _ _ _ L H Q). intros s1 L1 B1. apply (IH s1 p e r L1); [|lia|].
    + apply (same_depth (s_heap s)); auto. exact (proj2 (proj2 B1)).
    + apply (same_stands (s_heap s)); auto. exact (proj2 (proj2 B1)).
  - rewrite (namespace_other _ _ _ _ _ H T). exists s. split; [apply upward_none; auto|]. split; [apply but_refl|auto].
Qed.

(** With no declarations about. *)
Lemma nothing_named : forall s i n, linked s -> s_heap s i = Some n -> nothing_declared (s_heap s) i -> forall a, ~ first_named (s_heap s) s_xmlns (n_attrs n) a.
Proof.
  intros s i n L H N. assert (K : forall a na, In a (n_attrs n) -> s_heap s a = Some na -> no_null (n_name na) <> s_xmlns).
  { intros a na I A. apply (N i n a na (anc_refl _ _) H I A). }
  intros a F. induction F as [a m l A E|a m l x A E F IH]; [apply (K a m); auto; left; auto|]. apply IH. intros b nb I. apply K. right; auto.
Qed.
Lemma nothing_opt : forall s i n p, linked s -> s_heap s i = Some n -> nothing_declared (s_heap s) i -> find_attr_ns_opt s_xmlns p (n_attrs n) s = Ok None s.
Proof.
  intros s i n p L H N. apply find_opt_none. intros a I. destruct (attrs_live _ _ _ L H a I) as (na & A & _). exists na. split; auto.
  apply (N i n a na (anc_refl _ _) H I A).
Qed.
Lemma nothing_run : forall f s i d p r, linked s -> depth (s_heap s) i d -> d < f -> nothing_declared (s_heap s) i -> stands_for (s_heap s) p i r ->
  exists s', namespace_from f i p s = Ok r s' /\ but_counts s s' /\ (off_attributes (s_heap s) i -> s' = s).
Proof.
  induction f as [|f IH]; intros s i d p r L D LT N DN; [lia|]. destruct DN as [i n v H T B V|i n v H T B A|i n q r H T B A Q DN|i n H T B A Q|i n q r H T Q DN|i n H T Q].
  - exists s. split; [apply (namespace_own _ _ _ _ n); auto|]. split; [apply but_refl|auto].
  - exfalso. destruct p as [x|].
    + destruct A as (m & a & na & A1 & A2 & A3 & A4 & _). destruct (N i m a na (anc_refl _ _) A1 A2 A3) as (_ & _ & Z). congruence.
    + destruct A as (m & a & A1 & A2 & A3 & _). exact (nothing_named _ _ _ L A1 N _ A3).
  - destruct (depth_up _ _ _ _ _ D H Q) as (e & -> & DE). destruct (IH s q e p r L DE ltac:(lia) (nothing_up _ _ _ _ H Q N) DN) as (s' & A1 & A2 & A3).
    exists s'. split; [|split; [auto|intros O; apply A3; apply (off_up _ i n q); auto]].
    rewrite (namespace_element _ _ _ _ _ H T B (nothing_opt _ _ _ p L H N)). step (xmlns_unsaid _ _ _ L H (nothing_named _ _ _ L H N)). rewrite Q. exact A1.
  - exists s. split; [|split; [apply but_refl|auto]].
    rewrite (namespace_element _ _ _ _ _ H T B (nothing_opt _ _ _ p L H N)). step (xmlns_unsaid _ _ _ L H (nothing_named _ _ _ L H N)). rewrite Q. reflexivity.
  - rewrite (namespace_other _ _ _ _ _ H T). destruct (depth_up _ _ _ _ _ D H Q) as (e & -> & DE).
    apply (upward_ok _ _ _ _ _ _ _ _ L H Q). intros s1 L1 B1. apply (IH s1 q e p r L1); [|lia| |].
    + apply (same_depth (s_heap s)); auto. exact (proj2 (proj2 B1)).
    + apply (same_nothing (s_heap s)); [exact (proj2 (proj2 B1))|]. apply (nothing_up _ i n q); auto.
    + apply (same_stands (s_heap s)); auto. exact (proj2 (proj2 B1)).
  - rewrite (namespace_other _ _ _ _ _ H T). exists s. split; [apply upward_none; auto|]. split; [apply but_refl|auto].
Qed.

(** ** lookupPrefix *)
Lemma prefix_other : forall f i p s n, s_heap s i = Some n -> n_type n <> ELEMENT ->
  prefix_from (S f) i p s = upward (fun q => prefix_from f q p) None n s.
Proof. intros f i p s n H T. cbn [prefix_from]. step (load_ok _ _ _ H). unfold upward. destruct (n_type n); congruence. Qed.
Lemma prefix_bad : forall f s i d p, linked s -> depth (s_heap s) i d -> d < f -> (exists e, anc (s_heap s) e i /\ type_of (s_heap s) e = Some ELEMENT) ->
  prefix_from f i p s = Bad BadCast.
Proof.
  induction f as [|f IH]; intros s i d p L D LT (e & A & TE); [lia|].
  assert (LI : exists n, s_heap s i = Some n) by (inversion D; eauto). destruct LI as (n & H).
  destruct (ntype_eqb (n_type n) ELEMENT) eqn:T; [apply ntype_eqb_eq in T|apply ntype_eqb_neq in T].
  - cbn [prefix_from]. step (load_ok _ _ _ H). rewrite T. reflexivity.
  - rewrite (prefix_other _ _ _ _ _ H T). inversion A as [|? m q Hm Q A']; subst.
    + exfalso. unfold type_of in TE. rewrite H in TE. cbn in TE. congruence.
    + assert (m = n) by congruence; subst m. destruct (depth_up _ _ _ _ _ D H Q) as (c & -> & DE).
      unfold upward. destruct (ntype_eqb (n_type n) ATTRIBUTE) eqn:X; [apply ntype_eqb_eq in X|apply ntype_eqb_neq in X].
      * rewrite X, Q. destruct (ref_but s q (ln_parent _ L _ _ _ H Q)) as (s1 & R1 & B1). step R1.
        apply (IH s1 q c p); [apply (but_linked s); auto|apply (same_depth (s_heap s)); [exact (proj2 (proj2 B1))|auto]|lia|].
        exists e. split; [apply (like_anc (s_heap s)); auto; apply same_like; exact (proj2 (proj2 B1))|].
        rewrite (like_type (s_heap s)); auto. apply same_like. exact (proj2 (proj2 B1)).
      * assert (G : prefix_from f q p s = Bad BadCast) by (apply (IH s q c p); auto; [lia|exists e; auto]).
        destruct (n_type n); try congruence; rewrite Q; exact G.
Qed.
Lemma prefix_run : forall f s i d p, linked s -> depth (s_heap s) i d -> d < f -> (forall e, anc (s_heap s) e i -> type_of (s_heap s) e <> Some ELEMENT) ->
  exists s', prefix_from f i p s = Ok None s' /\ but_counts s s' /\ (off_attributes (s_heap s) i -> s' = s).
Proof.
  induction f as [|f IH]; intros s i d p L D LT NE; [lia|].
  assert (LI : exists n, s_heap s i = Some n) by (inversion D; eauto). destruct LI as (n & H).
  assert (T : n_type n <> ELEMENT). { intros T. apply (NE i (anc_refl _ _)). unfold type_of. rewrite H. cbn. congruence. }
  rewrite (prefix_other _ _ _ _ _ H T). destruct (n_parent n) as [q|] eqn:Q.
  - destruct (depth_up _ _ _ _ _ D H Q) as (c & -> & DE). apply (upward_ok _ _ _ _ _ _ _ _ L H Q). intros s1 L1 B1.
    apply (IH s1 q c p L1); [apply (same_depth (s_heap s)); [exact (proj2 (proj2 B1))|auto]|lia|]. intros e A TE.
    assert (K : like (s_heap s) (s_heap s1)) by (apply same_like; exact (proj2 (proj2 B1))).
    rewrite (like_type _ _ K) in TE. apply (NE e); auto. apply (anc_step _ _ _ n q); auto. apply (like_anc _ _ (like_sym _ _ K)); auto.
  - exists s. split; [apply upward_none; auto|]. split; [apply but_refl|auto].
Qed.
