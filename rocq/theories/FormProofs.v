(** Forms and their controls in every history. *)
From Coq Require Import List Arith NArith ZArith Bool Lia.
From Verif Require Import Base HeapModel HeapSpec HeapInv HeapExec HeapTree HeapFrame HeapOps HeapUnref HeapInsert StringModel HistModel HistProofs TreeSpec TreeProofs
  WalkModel WalkSpec WalkProofs WalkLists WalkFinds WalkIds WalkMore WalkReach HtmlModel HtmlSpec HtmlBase LookupSpec LookupProofs DocModel DocSpec DocProofs FormModel FormSpec.
Import ListNotations.
Local Open Scope dom_scope.

(** ** References borrowed *)
Lemma answered_wf' : forall s s' ch o, wf s ch -> counted s -> answered s o s' -> (forall x, o = Some x -> live (s_heap s) x) -> wf s' ch.
Proof.
  intros s s' ch [x|] W C A LV.
  - destruct (LV x eq_refl) as (n & H). assert (NW : no_wrap n) by (unfold no_wrap; exact (C _ _ H)).
    apply (same_wf (withh s (hmod (s_heap s) x ref_up))); [|eapply ref_up_wf; eauto].
    destruct A as (J1 & J2 & J3). split; [exact J1|]. split; [exact J2|]. intros i. rewrite J3. cbn [withh s_heap]. unfold hmod.
    destruct (Nat.eqb_spec i x) as [->|NJ].
    + rewrite H, oid_refl. cbn [option_map]. f_equal. unfold ref_up. f_equal. unfold u32. symmetry. apply N.mod_small. exact NW.
    + destruct (s_heap s i) as [m|]; auto. rewrite oid_other; auto.
  - apply (same_wf s); auto. destruct A as (A1 & A2 & A3). split; [auto|]. split; [auto|]. intros j. rewrite A3. destruct (s_heap s j); reflexivity.
Qed.
Lemma unref_held : forall s ch x n, wf s ch -> s_heap s x = Some n -> (1 < n_ref n)%N -> (n_ref n < two32)%N ->
  exists s', node_unref x s = Ok tt s' /\ wf s' ch /\ s_log s' = s_log s /\ s_nxt s' = s_nxt s /\ forall j, s_heap s' j = if Nat.eqb j x then Some (set_ref (n_ref n - 1) n) else s_heap s j.
Proof.
  intros s ch x n W H R1 R2. destruct (unref_spec s ch x n W H ltac:(lia) R2) as (h' & ch' & E & W' & Z).
  assert (Q : (1 <? n_ref n)%N = true) by (apply N.ltb_lt; auto). rewrite Q in Z. cbn [orb] in Z. destruct Z as [-> ->].
  exists (withh s (hmod (s_heap s) x ref_down)). split; [exact E|]. split; [exact W'|]. split; [reflexivity|]. split; [reflexivity|]. intros j. cbn [withh s_heap]. unfold hmod.
  destruct (Nat.eqb_spec j x) as [->|]; [|reflexivity]. rewrite H. cbn [option_map]. f_equal. unfold ref_down. f_equal.
  apply (ref_down_val n); auto. lia.
Qed.
Lemma ref_answered : forall s x, counted s -> live (s_heap s) x -> exists s', node_ref x s = Ok tt s' /\ answered s (Some x) s'.
Proof.
  intros s x C L. destruct (ref_opt_answered s (Some x) C) as (s' & E & A). { intros i Q. injection Q as <-. auto. } exists s'. split; auto.
  destruct L as (n & H). unfold ref_opt, node_ref, bind in E |- *. rewrite (upd_ok _ _ _ _ H) in *. injection E as <-. reflexivity.
Qed.
Lemma borrowed : forall A (ask : id -> M st A) j s g d o (a : A), reach j s g -> briefly j -> holds g d -> (forall x, o = Some x -> live (s_heap s) x) ->
  (forall s2, linked s2 -> counted s2 -> LookupProofs.same (s_heap s) (s_heap s2) -> exists s3, ask d s2 = Ok a s3 /\ answered s2 o s3) ->
  exists s', (node_ref d ;;; node_ref d ;;; x <- ask d ;; node_unref d ;;; node_unref d ;;; ret x) s = Ok a s' /\ answered s o s'.
Proof.
  intros A ask j s g d o a R B HD OL K. assert (SH : short j) by (unfold short, briefly, two32 in *; lia). pose proof (reach_linked _ _ _ R SH) as L.
  destruct (reach_roomy _ _ _ R B) as ((ch & W) & RM & AG). unfold holds in HD.
  destruct (s_heap s d) as [n|] eqn:H. 2:{ pose proof (ag_dead _ _ _ AG _ H). lia. }
  pose proof (ag_ref _ _ _ AG _ _ H) as RF. pose proof (RM _ _ H) as RB. pose proof (roomy_counted _ RM) as C.
  destruct (ref_answered s d C ltac:(exists n; auto)) as (s1 & E1 & A1). pose proof (answered_counted _ _ _ RM A1) as C1.
  pose proof (answered_wf' s s1 ch (Some d) W C A1 ltac:(intros x Q; injection Q as <-; exists n; auto)) as W1.
  pose proof (answered_same _ _ _ A1) as S1. pose proof (but_linked _ _ (answered_but _ _ _ A1) L) as L1.
  assert (H1 : s_heap s1 d = Some (set_ref (n_ref n + 1) n)) by (destruct A1 as (_ & _ & A1); rewrite A1, H, oid_refl; reflexivity).
  destruct (ref_answered s1 d C1 ltac:(eexists; exact H1)) as (s2 & E2 & A2).
  pose proof (answered_wf' s1 s2 ch (Some d) W1 C1 A2 ltac:(intros x Q; injection Q as <-; eexists; exact H1)) as W2.
  pose proof (answered_same _ _ _ A2) as S2. pose proof (but_linked _ _ (answered_but _ _ _ A2) L1) as L2.
  assert (H2 : s_heap s2 d = Some (set_ref (n_ref n + 2) n)).
  { destruct A2 as (_ & _ & A2); rewrite A2, H1, oid_refl. f_equal. cbn [n_ref set_ref]. replace (n_ref n + 1 + 1)%N with (n_ref n + 2)%N by lia. destruct n; reflexivity. }
  assert (S12 : LookupProofs.same (s_heap s) (s_heap s2)) by (intros i; rewrite S2; apply S1).
  assert (O2 : forall i, i <> d -> s_heap s2 i = s_heap s i).
  { intros i N. destruct A2 as (_ & _ & A2). destruct A1 as (_ & _ & A1). rewrite A2, A1. destruct (s_heap s i); auto. rewrite !oid_other by auto. reflexivity. }
  assert (C2 : counted s2).
  { intros i m M. destruct (Nat.eq_dec i d) as [->|N]; [rewrite H2 in M; injection M as <-; cbn [n_ref set_ref]; lia|]. rewrite O2 in M by auto. exact (C _ _ M). }
  destruct (K s2 L2 C2 S12) as (s3 & E3 & A3).
  assert (W3 : wf s3 ch). { apply (answered_wf' s2 s3 ch o W2 C2 A3). intros x Q. destruct (OL x Q) as (m & M). destruct (same_get _ _ S12 _ _ M) as (m2 & M2 & _). exists m2; auto. }
  set (e := if oid_eqb o (Some d) then 1%N else 0%N). assert (EB : (e <= 1)%N) by (unfold e; destruct (oid_eqb o (Some d)); lia).
  assert (H3 : s_heap s3 d = Some (set_ref (n_ref n + 2 + e) n)).
  { destruct A3 as (_ & _ & A3). rewrite A3, H2. unfold e. destruct (oid_eqb o (Some d)); [reflexivity|]. rewrite N.add_0_r. reflexivity. }
  destruct (unref_held s3 ch d _ W3 H3) as (s4 & E4 & W4 & G1 & G2 & G3); [cbn [n_ref set_ref]; lia|cbn [n_ref set_ref]; lia|].
  assert (H4 : s_heap s4 d = Some (set_ref (n_ref n + 1 + e) n)).
  { rewrite G3, Nat.eqb_refl. f_equal. cbn [n_ref set_ref]. replace (n_ref n + 2 + e - 1)%N with (n_ref n + 1 + e)%N by lia. reflexivity. }
  destruct (unref_held s4 ch d _ W4 H4) as (s5 & E5 & W5 & G4 & G5 & G6); [cbn [n_ref set_ref]; lia|cbn [n_ref set_ref]; lia|].
  exists s5. split.
  - step E1. step E2. step E3. step E4. step E5. reflexivity.
  - pose proof A1 as (P1 & P2 & _). pose proof A2 as (P3 & P4 & _). pose proof A3 as (P5 & P6 & P7). split; [congruence|]. split; [congruence|].
    intros i. rewrite G6. destruct (Nat.eqb_spec i d) as [->|N].
    + rewrite H. f_equal. cbn [n_ref set_ref]. replace (n_ref n + 1 + e - 1)%N with (n_ref n + e)%N by lia. unfold e. destruct (oid_eqb o (Some d)); [reflexivity|].
      rewrite N.add_0_r. destruct n; reflexivity.
    + rewrite G3. destruct (Nat.eqb_spec i d) as [X|_]; [contradiction|]. rewrite P7, O2 by auto. reflexivity.
Qed.
Lemma answered_none : forall s s', answered s None s' <-> same_state s s'.
Proof.
  intros s s'. split; intros (A & B & C); (split; [auto|]); (split; [auto|]); intros j; rewrite C; destruct (s_heap s j); reflexivity.
Qed.

(** ** Controls *)
Lemma control_iff : forall s i, (type_of (s_heap s) i = Some ELEMENT /\ match s_heap s i with Some n => control n | None => false end = true) <-> is_control (s_heap s) i.
Proof.
  intros s i. unfold is_control, tag, type_of, control. destruct (s_heap s i) as [n|] eqn:H.
  2:{ split; [intros (A & _); discriminate|]. intros [A|[A|[A|A]]]; destruct A as (m & M & _); discriminate. }
  cbn [option_map]. rewrite !orb_true_iff.
  assert (Q : forall name, name <> [] -> name <> [42%N] -> n_type n = ELEMENT -> (caseless_isequal (n_name n) (Some name) = true <-> exists m, Some n = Some m /\ has_tag true name m)).
  { intros name N1 N2 T. rewrite (caseless_tag name n N1 N2 T). split; [intros E; exists n; auto|intros (m & E & E2); congruence]. }
  split.
  - intros (T & X). injection T as T. rewrite !Q in X by (auto; discriminate). tauto.
  - intros X. assert (T : n_type n = ELEMENT) by (destruct X as [A|[A|[A|A]]]; destruct A as (m & M & Z & _); congruence).
    split; [congruence|]. rewrite !Q by (auto; discriminate). tauto.
Qed.
Lemma form_control_iff : forall p f s i, type_of (s_heap s) i = Some ELEMENT /\ form_control p f s i = true <-> is_control (s_heap s) i /\ p i = Some f.
Proof.
  intros p f s i. rewrite <- control_iff. unfold form_control, type_of. destruct (s_heap s i) as [n|]; cbn [option_map].
  - rewrite andb_true_iff. assert (X : oid_eqb (p i) (Some f) = true <-> p i = Some f).
    { split; [|intros ->; apply oid_refl]. unfold oid_eqb. destruct (p i) as [q|]; [|discriminate]. intros Q. apply Nat.eqb_eq in Q. congruence. }
    rewrite X. tauto.
  - split; [intros (A & _); discriminate|intros ((A & _) & _); discriminate].
Qed.
Lemma same_control : forall h h', LookupProofs.same h h' -> forall i, is_control h i -> is_control h' i.
Proof. intros h h' K i C. unfold is_control in *. destruct C as [C|[C|[C|C]]]; apply (same_tag h h' K) in C; tauto. Qed.

Lemma reach_controls : forall j s g, reach j s g -> briefly j -> forall p f d k, live (s_heap s) f -> owner_of (s_heap s) f = Some d -> holds g d -> controls p (s_heap s) f d k ->
  (exists s', form_length p f s = Ok (N.of_nat (length k)) s' /\ same_state s s') /\
  (forall index, (index + 1 < two32)%N -> exists s', form_item p f index s = Ok (nth_error k (N.to_nat index)) s' /\ answered s (nth_error k (N.to_nat index)) s').
Proof.
  intros j s g R B p f d k (nf & HF) OW HD (x & l & O & LB & PK). unfold owner_of in OW. rewrite HF in OW.
  assert (Q : forall s2, linked s2 -> counted s2 -> LookupProofs.same (s_heap s) (s_heap s2) ->
    col_length (form_control p f s2) d s2 = Ok (N.of_nat (length k)) s2 /\
    (forall index, (index + 1 < two32)%N -> exists s3, col_item (form_control p f s2) d index s2 = Ok (nth_error k (N.to_nat index)) s3 /\ answered s2 (nth_error k (N.to_nat index)) s3)).
  { intros s2 L2 C2 K2. assert (O2 : order (s_heap s2) d (d :: x :: l)) by (apply (order_like (s_heap s)); auto; apply same_like; exact K2).
    assert (PK2 : picks (fun i => type_of (s_heap s2) i = Some ELEMENT /\ form_control p f s2 i = true) (d :: x :: l) k).
    { refine (picks_iff _ _ _ _ _ _ PK). intros i. rewrite form_control_iff. split; intros (U & V); (split; [|exact V]); [apply (same_control (s_heap s))|apply (same_control (s_heap s2)); [apply LookupProofs.same_sym|]]; auto. }
    assert (FI : exists n, s_heap s2 d = Some n /\ (n_first n <> None \/ n_next n = None)).
    { inversion O2 as [? cs ls CH F E1 EE]. destruct CH as (nd & HN & CN). exists nd. split; auto. left. destruct cs as [|c cs]; [inversion F; subst ls; discriminate|].
      inversion CN; subst; congruence. }
    destruct (collection_list s2 L2 C2 (form_control p f s2) d FI (d :: x :: l) k O2 LB PK2) as (A1 & A2 & _). auto. }
  assert (ST : forall A (ask : id -> M st A), form_asked f ask s = (node_ref d ;;; node_ref d ;;; x <- ask d ;; node_unref d ;;; node_unref d ;;; ret x) s).
  { intros A ask. unfold form_asked. step (load_ok _ _ _ HF). cbn in OW. rewrite OW. reflexivity. }
  split.
  - destruct (borrowed N (fun d s => col_length (form_control p f s) d s) j s g d None (N.of_nat (length k)) R B HD) as (s' & E & A); [discriminate| |].
    + intros s2 L2 C2 K2. exists s2. split; [apply (Q s2 L2 C2 K2)|]. apply answered_none. split; [|split]; reflexivity.
    + exists s'. split; [|apply answered_none; exact A]. unfold form_length. rewrite ST. exact E.
  - intros index IX. destruct (borrowed (option id) (fun d s => col_item (form_control p f s) d index s) j s g d (nth_error k (N.to_nat index)) (nth_error k (N.to_nat index)) R B HD) as (s' & E & A).
    + intros y E. apply nth_error_In in E. destruct (picks_in _ _ _ _ PK _ E) as (_ & X & _). apply control_iff in X. apply (live_type _ _ _ (proj1 X)).
    + intros s2 L2 C2 K2. apply (Q s2 L2 C2 K2). exact IX.
    + exists s'. split; [|exact A]. unfold form_item. rewrite ST. exact E.
Qed.
Lemma reach_form : forall j s g, reach j s g -> briefly j -> forall p c f, live (s_heap s) c -> p c = Some f -> live (s_heap s) f ->
  exists s', get_form p c s = Ok (Some f) s' /\ answered s (Some f) s'.
Proof.
  intros j s g R B p c f (n & H) P LF. destruct (reach_roomy _ _ _ R B) as (_ & RM & _).
  destruct (ref_opt_answered s (Some f) (roomy_counted _ RM)) as (s' & E & A). { intros i Q. injection Q as <-. auto. }
  exists s'. split; auto. unfold get_form. step (load_ok _ _ _ H). rewrite P. exact E.
Qed.
Lemma form_none : forall s p c, live (s_heap s) c -> p c = None -> get_form p c s = Ok None s.
Proof. intros s p c (n & H) P. unfold get_form. step (load_ok _ _ _ H). rewrite P. reflexivity. Qed.
Lemma form_gone : forall s p c f, live (s_heap s) c -> p c = Some f -> ~ live (s_heap s) f -> get_form p c s = Bad UseAfterFree.
Proof.
  intros s p c f (n & H) P LF. unfold get_form. step (load_ok _ _ _ H). rewrite P. unfold ref_opt, node_ref, bind, upd. unfold live in LF.
  destruct (s_heap s f) as [m|] eqn:F; [exfalso; eauto|]. reflexivity.
Qed.
Lemma no_controls : forall p h f d k, (forall i, p i <> Some f) -> controls p h f d k -> k = [].
Proof.
  intros p h f d k N (x & l & _ & _ & PK). destruct k as [|c k]; auto. exfalso. destruct (picks_in _ _ _ _ PK c (or_introl eq_refl)) as (_ & _ & X). exact (N c X).
Qed.

(** ** The way up *)
Lemma tag_iff : forall s (name : bytes) i n, name <> [] -> name <> [42%N] -> s_heap s i = Some n ->
  (element_node n && caseless_isequal (n_name n) (Some name) = true <-> tag (s_heap s) name i).
Proof.
  intros s name i n N1 N2 H. pose proof (has_tag_iff true name n N1 N2) as Q. cbn [eq_of] in Q. rewrite Q. unfold tag. rewrite H. split; [eauto|intros (m & M & T); congruence].
Qed.
Lemma closest_ex : forall s (name : bytes), linked s -> name <> [] -> name <> [42%N] -> forall e c, (forall i, c = Some i -> depth (s_heap s) i e) -> exists o, closest (s_heap s) name c o.
Proof.
  intros s name L N1 N2 e. induction e as [e IH] using lt_wf_ind. intros [i|] D; [|exists None; constructor]. specialize (D i eq_refl).
  assert (HI : exists n, s_heap s i = Some n) by (inversion D; eauto). destruct HI as (n & H).
  destruct (element_node n && caseless_isequal (n_name n) (Some name)) eqn:T.
  - exists (Some i). constructor. apply (tag_iff s name i n); auto.
  - assert (NT : ~ tag (s_heap s) name i) by (intros X; apply (tag_iff s name i n N1 N2 H) in X; congruence).
    destruct (n_parent n) as [q|] eqn:P.
    + destruct (depth_up _ _ _ _ _ D H P) as (e' & -> & DQ). destruct (IH e' ltac:(lia) (Some q)) as (o & O). { intros k Q. injection Q as <-. auto. }
      exists o. apply cl_up; auto. unfold parent_of. rewrite H, P. exact O.
    + exists None. apply cl_up; auto. unfold parent_of. rewrite H, P. constructor.
Qed.
Lemma nearest_run : forall s (name : bytes), linked s -> name <> [] -> name <> [42%N] -> forall c o, closest (s_heap s) name c o -> forall f e, (forall i, c = Some i -> depth (s_heap s) i e) -> e < f ->
  nearest f name c s = Ok o s /\ (forall x, o = Some x -> live (s_heap s) x).
Proof.
  intros s name L N1 N2 c o CL. induction CL as [|i T|i o T CL IH]; intros f e D LT.
  - split; [destruct f; reflexivity|discriminate].
  - pose proof T as (n & H & _). split; [|intros x Q; injection Q as <-; exists n; auto]. destruct f as [|f]; [lia|]. cbn [nearest]. step (load_ok _ _ _ H). cbv beta.
    rewrite (proj2 (tag_iff s name i n N1 N2 H) T). reflexivity.
  - specialize (D i eq_refl). assert (HI : exists n, s_heap s i = Some n) by (inversion D; eauto). destruct HI as (n & H). unfold parent_of in *. rewrite H in *.
    destruct f as [|f]; [lia|]. cbn [nearest]. assert (F : element_node n && caseless_isequal (n_name n) (Some name) = false).
    { destruct (element_node n && caseless_isequal (n_name n) (Some name)) eqn:E; auto. apply (tag_iff s name i n N1 N2 H) in E. contradiction. }
    destruct (n_parent n) as [q|] eqn:P.
    + destruct (depth_up _ _ _ _ _ D H P) as (e' & -> & DQ). destruct (IH f e') as (X & Y). { intros k Q. injection Q as <-. auto. } { lia. }
      split; [|exact Y]. step (load_ok _ _ _ H). cbv beta. rewrite F, P. exact X.
    + inversion CL; subst. split; [|discriminate]. step (load_ok _ _ _ H). cbv beta. rewrite F, P. destruct f; reflexivity.
Qed.
Lemma enclosing_run : forall j s g, reach j s g -> short j -> forall (name : bytes), name <> [] -> name <> [42%N] -> forall i, type_of (s_heap s) i = Some ELEMENT ->
  (exists o, closest_above (s_heap s) name i o) /\
  forall o, closest_above (s_heap s) name i o -> enclosing name i s = Ok o s /\ (forall x, o = Some x -> live (s_heap s) x).
Proof.
  intros j s g R SH name N1 N2 i T. pose proof (reach_linked _ _ _ R SH) as L. destruct (reach_good _ _ _ R SH) as [[ch W] AG]. pose proof W as (WL & WT & WO & WR).
  unfold type_of in T. destruct (s_heap s i) as [n|] eqn:H; [|discriminate]. cbn in T. injection T as T.
  destruct (rooted_depth _ _ (linked_rooted _ L i ltac:(exists n; auto))) as [d D]. pose proof (linked_depth_bound _ L _ _ D) as DB.
  assert (DP : forall q, n_parent n = Some q -> exists e, d = S e /\ depth (s_heap s) q e) by (intros q P; exact (depth_up _ _ _ _ _ D H P)).
  assert (DD : exists e, e <= d /\ forall q, n_parent n = Some q -> depth (s_heap s) q e).
  { destruct (n_parent n) as [q|]; [|exists d; split; [lia|discriminate]]. destruct (DP q eq_refl) as (e & -> & DE). exists e. split; [lia|]. intros x Q. injection Q as <-. auto. }
  destruct DD as (e & LE & DE). split.
  - unfold closest_above, parent_of. rewrite H. apply (closest_ex s name L N1 N2 e). exact DE.
  - intros o CL. unfold closest_above, parent_of in CL. rewrite H in CL.
    destruct (nearest_run s name L N1 N2 _ _ CL (fuel_of s) e DE) as (X & Y). { unfold fuel_of. lia. }
    split; [|exact Y]. assert (OW : exists w nw, n_owner n = Some w /\ s_heap s w = Some nw).
    { destruct (n_owner n) as [w|] eqn:O; [|destruct (wo_noowner _ _ WO _ _ H O); congruence]. destruct (wo_owner _ _ WO _ _ _ H O) as [(nw & A & _)|((A & _) & _)]; [eauto|congruence]. }
    destruct OW as (w & nw & O & HW). unfold enclosing. step (load_ok _ _ _ H).
    assert (HDC : html_doc i s = Ok w s). { unfold html_doc. step (load_ok _ _ _ H). rewrite O. step (load_ok _ _ _ HW). reflexivity. }
    step HDC. exact X.
Qed.
Lemma reach_label : forall j s g, reach j s g -> briefly j -> forall i, type_of (s_heap s) i = Some ELEMENT ->
  exists o s', closest_above (s_heap s) s_FORM i o /\ label_form i s = Ok o s' /\ answered s o s'.
Proof.
  intros j s g R B i T. assert (SH : short j) by (unfold short, briefly, two32 in *; lia). destruct (reach_roomy _ _ _ R B) as (_ & RM & _).
  destruct (enclosing_run j s g R SH s_FORM ltac:(discriminate) ltac:(discriminate) i T) as ((o & CL) & K). destruct (K o CL) as (E & LV).
  destruct (ref_opt_answered s o (roomy_counted _ RM) LV) as (s' & E' & A). exists o, s'. split; auto. split; auto. unfold label_form. step E. exact E'.
Qed.
Lemma closest_tag : forall h name c x, closest h name c (Some x) -> type_of h x = Some ELEMENT.
Proof.
  intros h name c x CL. remember (Some x) as o eqn:E. revert x E. induction CL; intros x E; [discriminate| |eauto]. injection E as <-.
  destruct H as (n & H & T & _). unfold type_of. rewrite H. cbn. congruence.
Qed.
Lemma reach_legend : forall j s g, reach j s g -> briefly j -> forall i, type_of (s_heap s) i = Some ELEMENT ->
  exists q o s', closest_above (s_heap s) s_FIELDSET i q /\ (match q with Some x => closest_above (s_heap s) s_FORM x o | None => o = None end) /\ legend_form i s = Ok o s' /\ answered s o s'.
Proof.
  intros j s g R B i T. assert (SH : short j) by (unfold short, briefly, two32 in *; lia).
  destruct (enclosing_run j s g R SH s_FIELDSET ltac:(discriminate) ltac:(discriminate) i T) as ((q & CL) & K). destruct (K q CL) as (E & LV).
  destruct q as [x|].
  - destruct (reach_label j s g R B x (closest_tag _ _ _ _ CL)) as (o & s' & C & F & A). exists (Some x), o, s'. split; auto. split; auto. split; auto. unfold legend_form. step E. exact F.
  - exists None, None, s. split; auto. split; auto. split; [unfold legend_form; step E; reflexivity|]. apply answered_none. split; [|split]; reflexivity.
Qed.
Lemma reach_option : forall j s g, reach j s g -> briefly j -> forall p i, type_of (s_heap s) i = Some ELEMENT -> (forall x f, p x = Some f -> live (s_heap s) f) ->
  exists q o s', closest_above (s_heap s) s_SELECT i q /\ o = match q with Some x => p x | None => None end /\ option_form p i s = Ok o s' /\ answered s o s'.
Proof.
  intros j s g R B p i T PL. assert (SH : short j) by (unfold short, briefly, two32 in *; lia).
  destruct (enclosing_run j s g R SH s_SELECT ltac:(discriminate) ltac:(discriminate) i T) as ((q & CL) & K). destruct (K q CL) as (E & LV).
  destruct q as [x|].
  - destruct (p x) as [f|] eqn:P.
    + destruct (reach_form j s g R B p x f (LV x eq_refl) P (PL _ _ P)) as (s' & F & A). exists (Some x), (Some f), s'. split; auto. split; auto. split; auto. unfold option_form. step E. exact F.
    + exists (Some x), None, s. split; auto. split; auto. split; [unfold option_form; step E; apply form_none; auto|]. apply answered_none. split; [|split]; reflexivity.
  - exists None, None, s. split; auto. split; auto. split; [unfold option_form; step E; reflexivity|]. apply answered_none. split; [|split]; reflexivity.
Qed.

(** ** Association *)
Lemma reach_associated : forall j s g, reach j s g -> briefly j -> forall p c f, is_control (s_heap s) c -> live (s_heap s) f ->
  exists s', get_form (associate f c p s) c s = Ok (Some f) s' /\ answered s (Some f) s'.
Proof.
  intros j s g R B p c f C LF. apply control_iff in C as (T & C). apply (reach_form j s g R B); auto; [exact (live_type _ _ _ T)|].
  unfold associate. destruct (s_heap s c) as [n|]; [|discriminate]. rewrite C, Nat.eqb_refl. reflexivity.
Qed.
Lemma associate_others : forall f c p s i, i <> c \/ ~ (exists n, s_heap s c = Some n /\ control n = true) -> associate f c p s i = p i.
Proof.
  intros f c p s i H. unfold associate. destruct (s_heap s c) as [n|]; [|reflexivity]. destruct (control n) eqn:C; [|reflexivity].
  destruct (Nat.eqb_spec i c) as [E|]; [|reflexivity]. destruct H as [H|H]; [contradiction|]. exfalso. apply H. exists n. auto.
Qed.
Lemma reach_empty : forall j s g, reach j s g -> briefly j -> forall f d k, live (s_heap s) f -> owner_of (s_heap s) f = Some d -> holds g d -> controls no_forms (s_heap s) f d k ->
  exists s', form_length no_forms f s = Ok 0%N s'.
Proof.
  intros j s g R B f d k LF OW HD C. assert (K : k = []) by (apply (no_controls no_forms (s_heap s) f d); [intros i; discriminate|exact C]). subst k.
  destruct (reach_controls j s g R B _ _ _ _ LF OW HD C) as ((s' & E & _) & _). exists s'. exact E.
Qed.
