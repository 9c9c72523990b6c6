(** cloneNode keeps the heap invariant, copies the tree and leaves the rest alone. *)
From Coq Require Import List Arith NArith Bool Lia ZifyBool ZifyNat ZifyN.
From Verif Require Import Base HeapModel HeapSpec HeapInv HeapExec HeapTree HeapSplice HeapLoops HeapEdit HeapAttach HeapInsert HeapFrame
  HeapOps HeapAttrNode HeapDestroy HeapGut HeapUnref HeapCreate CharDataModel ContentModel HeapContent.
Import ListNotations.
Local Open Scope dom_scope.

Definition field_eq (n n' : node) : Prop :=
  n_type n' = n_type n /\ n_name n' = n_name n /\ n_value n' = n_value n /\ n_ns n' = n_ns n /\ n_prefix n' = n_prefix n.

(** Nothing that was there is changed, except for the children of [x]. *)
Record keeps (x : id) (s s' : st) (ch ch' : id -> list id) : Prop := mkKeeps {
  kp_nxt : s_nxt s <= s_nxt s';
  kp_node : forall j n, s_heap s j = Some n -> exists n', s_heap s' j = Some n' /\ core_eq n n' /\ n_parent n' = n_parent n /\
     (n_owner n' = n_owner n \/ n_owner n = None) /\ (n_pending n = true -> n_pending n' = true);
  kp_ch : forall j, live (s_heap s) j -> j <> x -> ch' j = ch j;
  kp_new : forall j, s_heap s j = None -> live (s_heap s') j -> s_nxt s <= j
}.

Lemma keeps_refl : forall x s ch, keeps x s s ch ch.
Proof.
  intros x s ch. constructor; auto.
  - intros j n H. exists n. split; auto. split; [apply core_eq_refl|]. auto.
  - intros j H (n & L). congruence.
Qed.

Lemma keeps_trans : forall x s1 s2 s3 ch1 ch2 ch3, wfL (s_heap s1) (s_nxt s1) -> keeps x s1 s2 ch1 ch2 -> keeps x s2 s3 ch2 ch3 -> keeps x s1 s3 ch1 ch3.
Proof.
  intros x s1 s2 s3 ch1 ch2 ch3 WL [A1 A2 A3 A4] [B1 B2 B3 B4]. constructor.
  - lia.
  - intros j n H. destruct (A2 _ _ H) as (n2 & H2 & C2 & P2 & O2 & Q2). destruct (B2 _ _ H2) as (n3 & H3 & C3 & P3 & O3 & Q3).
    exists n3. split; auto. split; [eapply core_eq_trans; eauto|]. split; [congruence|]. split; auto.
    destruct O2 as [O2|O2]; auto. rewrite <- O2. destruct O3 as [O3|O3]; auto.
  - intros j L NE. rewrite B3, A3; auto. destruct L as (n & H). destruct (A2 _ _ H) as (n2 & H2 & _). exists n2; auto.
  - intros j H L. destruct (s_heap s2 j) as [n|] eqn:E; [|apply B4 in L; auto; lia]. apply A4; auto. exists n; auto.
Qed.

Lemma keeps_weaken : forall x y s s' ch ch', ~ live (s_heap s) x \/ x = y -> keeps x s s' ch ch' -> keeps y s s' ch ch'.
Proof.
  intros x y s s' ch ch' D [A1 A2 A3 A4]. constructor; auto. intros j L NE. apply A3; auto. destruct D as [D|D]; congruence.
Qed.

(** [j] heads a copy of [t] made of nodes numbered from [nx] on. *)
Inductive cp (nx : nat) (h h' : heap) (ch' : id -> list id) : rose -> id -> Prop :=
| cp_T i ats ks j n m : h i = Some n -> h' j = Some m -> nx <= j -> field_eq n m ->
    Forall2 (cp nx h h' ch') ats (n_attrs m) -> Forall2 (cp nx h h' ch') ks (ch' j) -> cp nx h h' ch' (T i ats ks) j.

Lemma cp_ind2 : forall nx h h' ch' (P : rose -> id -> Prop),
  (forall i ats ks j n m, h i = Some n -> h' j = Some m -> nx <= j -> field_eq n m -> Forall2 (cp nx h h' ch') ats (n_attrs m) -> Forall2 P ats (n_attrs m) ->
     Forall2 (cp nx h h' ch') ks (ch' j) -> Forall2 P ks (ch' j) -> P (T i ats ks) j) ->
  forall t j, cp nx h h' ch' t j -> P t j.
Proof.
  intros nx h h' ch' P IH t. induction t as [i ats ks FA FK] using rose_ind2. intros j C. inversion C as [? ? ? ? n m A B D E F G]; subst.
  eapply IH; eauto.
  - clear - FA F. revert FA. induction F; intros FA; constructor; inversion FA; subst; auto.
  - clear - FK G. revert FK. induction G; intros FK; constructor; inversion FK; subst; auto.
Qed.

(** The copy is still there when nothing of it but parents and counters changed. *)
Lemma cp_target : forall nx h h1 h2 ch1 ch2 t j, cp nx h h1 ch1 t j ->
  (forall x m, h1 x = Some m -> nx <= x -> exists m', h2 x = Some m' /\ field_eq m m' /\ n_attrs m' = n_attrs m) ->
  (forall x, live h1 x -> nx <= x -> ch2 x = ch1 x) -> cp nx h h2 ch2 t j.
Proof.
  intros nx h h1 h2 ch1 ch2 t j C N K. induction C as [i ats ks j n m A B D E F FI G IH] using cp_ind2.
  destruct (N _ _ B D) as (m' & B' & E' & F'). apply (cp_T nx h h2 ch2 i ats ks j n m'); auto.
  - destruct E as (E1&E2&E3&E4&E5), E' as (G1&G2&G3&G4&G5). repeat split; congruence.
  - rewrite F'. exact FI.
  - rewrite K; auto. exists m; auto.
Qed.

Lemma cp_source : forall nx nx0 h h0 h' ch' t j, cp nx h h' ch' t j -> nx0 <= nx ->
  (forall i n, h i = Some n -> In i (nodes t) -> exists n0, h0 i = Some n0 /\ field_eq n0 n) -> cp nx0 h0 h' ch' t j.
Proof.
  intros nx nx0 h h0 h' ch' t j C LE. induction C as [i ats ks j n m A B D E F FI G IH] using cp_ind2. intros N.
  destruct (N _ _ A) as (n0 & A0 & E0); [left; auto|]. apply (cp_T nx0 h0 h' ch' i ats ks j n0 m); auto.
  - lia.
  - destruct E as (E1&E2&E3&E4&E5), E0 as (G1&G2&G3&G4&G5). repeat split; congruence.
  - assert (N' : forall i0 n0, h i0 = Some n0 -> In i0 (flat_map nodes ats) -> exists n1, h0 i0 = Some n1 /\ field_eq n1 n0).
    { intros i0 n1 X I. apply N; auto. right. apply in_or_app. auto. }
    clear - FI N'. induction FI; constructor.
    + apply H. intros i0 n0 A I. apply N'; auto. cbn [flat_map]. apply in_or_app. auto.
    + apply IHFI. intros i0 n0 A I. apply N'; auto. cbn [flat_map]. apply in_or_app. auto.
  - assert (N' : forall i0 n0, h i0 = Some n0 -> In i0 (flat_map nodes ks) -> exists n1, h0 i0 = Some n1 /\ field_eq n1 n0).
    { intros i0 n1 X I. apply N; auto. right. apply in_or_app. auto. }
    clear - IH N'. induction IH; constructor.
    + apply H. intros i0 n0 A I. apply N'; auto. cbn [flat_map]. apply in_or_app. auto.
    + apply IHIH. intros i0 n0 A I. apply N'; auto. cbn [flat_map]. apply in_or_app. auto.
Qed.

Definition copyable (t : ntype) : Prop := In t [ELEMENT; FRAGMENT; ATTRIBUTE; TEXT; CDATA; COMMENT].
Lemma copyable_not : forall t, copyable t -> t <> DOCUMENT /\ t <> DOCTYPE /\ t <> PI.
Proof. intros t H. unfold copyable in H. simpl in H. repeat split; intros ->; decompose [or] H; try discriminate; auto. Qed.

(** The tree to be copied. *)
Inductive src (h : heap) (ch : id -> list id) (d : id) : rose -> Prop :=
| src_T i ats ks n : h i = Some n -> copyable (n_type n) -> n_attrs n = map root ats -> n_owner n = Some d -> ch i = map root ks ->
    Forall (src h ch d) ats -> Forall (src h ch d) ks -> src h ch d (T i ats ks).

Lemma src_frame : forall h h' ch ch' d t, (forall j n, In j (nodes t) -> h j = Some n -> exists n', h' j = Some n' /\ core_eq n n' /\ (n_owner n' = n_owner n \/ n_owner n = None) /\ ch' j = ch j) ->
  src h ch d t -> src h' ch' d t.
Proof.
  intros h h' ch ch' d t. induction t as [i ats ks FA FK] using rose_ind2. intros K S.
  inversion S as [? ? ? n A B C D E F G]; subst. destruct (K i n) as (n' & A' & CE & O & CI); [left; auto|auto|].
  destruct CE as (C1&C2&_). apply (src_T h' ch' d i ats ks n'); auto.
  - rewrite C1; auto.
  - congruence.
  - destruct O as [O|O]; congruence.
  - congruence.
  - rewrite Forall_forall in *. intros k I. apply FA; auto. intros j m X. apply K. right. apply in_or_app. left. apply in_flat_map. eauto.
  - rewrite Forall_forall in *. intros k I. apply FK; auto. intros j m X. apply K. right. apply in_or_app. right. apply in_flat_map. eauto.
Qed.

Lemma src_keeps : forall x s s' ch ch' d t, keeps x s s' ch ch' -> ~ In x (nodes t) -> src (s_heap s) ch d t -> src (s_heap s') ch' d t.
Proof.
  intros x s s' ch ch' d t K NI S. eapply src_frame; [|exact S]. intros j n I A. destruct (kp_node _ _ _ _ _ K _ _ A) as (n' & A' & CE & _ & O & _).
  exists n'. split; auto. split; auto. split; auto. apply (kp_ch _ _ _ _ _ K); [exists n; auto|]. intros ->. contradiction.
Qed.

Lemma src_live : forall h ch d t, src h ch d t -> forall j, In j (nodes t) -> live h j.
Proof.
  intros h ch d t. induction t as [i ats ks FA FK] using rose_ind2. intros S j I. inversion S as [? ? ? n A B C D E F G]; subst.
  destruct I as [->|I]; [exists n; auto|]. apply in_app_or in I. rewrite Forall_forall in *. destruct I as [I|I]; apply in_flat_map in I; destruct I as (k & K1 & K2); eauto.
Qed.

(** A copy whose root was just made. *)
Definition top_copy (s : st) (d : id) (ty : ntype) (j : id) : Prop :=
  exists m, s_heap s j = Some m /\ n_parent m = None /\ n_ref m = 1%N /\ n_type m = ty /\ n_owner m = Some d /\ n_pending m = true /\ n_ro m = false.

Lemma copy_node_spec : forall s ch i n d nd, wf s ch -> s_heap s i = Some n -> copyable (n_type n) -> n_owner n = Some d ->
  s_heap s d = Some nd -> n_type nd = DOCUMENT ->
  exists s', copy_node i s = Ok (Fresh (s_nxt s)) s' /\ wf s' ch /\ keeps (s_nxt s) s s' ch ch /\ top_copy s' d (n_type n) (s_nxt s) /\
    s_nxt s' = S (s_nxt s) /\ ch (s_nxt s) = [] /\
    exists m, s_heap s' (s_nxt s) = Some m /\ field_eq n m /\ n_attrs m = [].
Proof.
  intros s ch i n d nd W H CPY O Hd Td. destruct (copyable_not _ CPY) as (T1 & T2 & T3).
  destruct (create_node_spec s ch d nd (n_type n) (n_name n) (n_value n) (n_ns n) (n_prefix n) W Hd Td T1) as (h' & E & W' & G).
  set (j := s_nxt s) in *. set (m0 := set_pending true _) in G. set (s1 := mkSt h' (S j) (s_log s)) in *.
  assert (Hj : s_heap s1 j = Some m0) by (apply (gr_new _ _ _ _ _ G)).
  set (f := set_classes (n_classes n)). exists (withh s1 (hmod h' j f)).
  assert (U : upd j f s1 = Ok tt (withh s1 (hmod h' j f))) by (apply (upd_ok s1 j m0 f Hj)).
  split.
  { unfold copy_node. step (load_ok _ _ _ H). rewrite O. fold f.
    assert (Q : (j0 <- create_node (Some d) (n_type n) (n_name n) (n_value n) (n_ns n) (n_prefix n) ;;
      upd j0 f ;;; match n_type n with PI => ret Wild | _ => ret (Fresh j0) end) s = Ok (Fresh j) (withh s1 (hmod h' j f))).
    { step E. step U. destruct (n_type n); try reflexivity; congruence. }
    destruct (n_type n); try exact Q; congruence. }
  assert (SS : same_struct h' (hmod h' j f)). { apply same_struct_hmod. intros x. repeat split. }
  destruct W' as (WL' & WT' & WO' & WR'). change (s_heap s1) with h' in *.
  split. { split; [|split; [|split]].
    - eapply same_wfL; eauto.
    - eapply same_wfT; eauto.
    - eapply same_wfO; eauto.
    - eapply same_wfR; eauto. intros x a b A B. destruct (hmod_inv _ _ _ _ _ B) as (c & C1 & C2). assert (c = a) by congruence; subst c.
      rewrite C2. unfold f. destruct (Nat.eqb x j); cbn; lia. }
  assert (NJ : s_heap s j = None) by (apply (gr_fresh _ _ _ _ _ G)).
  split.
  { constructor.
    - change (s_nxt (withh s1 (hmod h' j f))) with (S j). unfold j. lia.
    - intros x a A. destruct (gr_fwd _ _ _ _ _ G _ _ A) as (NE & a' & A' & EA & _). exists a'.
      rewrite withh_heap, hmod_other by auto. split; auto. rewrite EA. split; [repeat split|]. auto.
    - auto.
    - intros x X (a & L). destruct (Nat.eq_dec x j) as [->|NE]; [unfold j; lia|]. rewrite withh_heap, hmod_other in L by auto.
      destruct (gr_bwd _ _ _ _ _ G _ _ L) as [[? _]|(_ & b & B & _)]; [contradiction|congruence]. }
  assert (HJ : s_heap (withh s1 (hmod h' j f)) j = Some (f m0)). { rewrite withh_heap, hmod_same. rewrite Hj. auto. }
  split. { exists (f m0). split; [auto|]. repeat split. }
  split; [reflexivity|]. split. { destruct W as (_ & WT & _). apply (wt_dead _ _ WT); auto. }
  exists (f m0). split; auto. split; repeat split.
Qed.

(** Giving a node without parent a new last child. *)
Lemma append_copy : forall s ch d nd j r nj ty, wf s ch -> s_heap s d = Some nd -> n_type nd = DOCUMENT -> top_copy s d ty r ->
  s_heap s j = Some nj -> n_parent nj = None -> n_type nj <> DOCUMENT -> n_owner nj = Some d -> ~ spent nj -> n_ref nj = 1%N -> ~ read_only (s_heap s) j ->
  ty <> FRAGMENT -> nests (n_type nj) ty -> r <> j ->
  exists sa sb s', try (append_child j r) s = Ok (inl r) sa /\ node_unref r sa = Ok tt sb /\ node_unref r sb = Ok tt s' /\
    s_nxt s' = s_nxt s /\ wf s' (fun x => if Nat.eqb x j then ch j ++ [r] else ch x) /\
    (forall x n, s_heap s x = Some n -> x <> r -> exists n', s_heap s' x = Some n' /\ core_eq n n' /\ n_parent n' = n_parent n /\
        (n_owner n' = n_owner n \/ n_owner n = None) /\ (n_pending n = true -> n_pending n' = true)) /\
    (forall x, s_heap s x = None -> s_heap s' x = None) /\
    (exists m m', s_heap s r = Some m /\ s_heap s' r = Some m' /\ field_eq m m' /\ n_attrs m' = n_attrs m).
Proof.
  intros s ch d nd j r nj ty W Hd Td (m & Hr & Pr & Rr & Tr & Or & Qr & Nr) Hj Pj Tj Oj NS Rj RO TF NE RJ.
  pose proof W as (WL & WT & WO & WR).
  destruct (tree_exists _ _ _ WL WT r) as (t & Rt & Et). { exists m; auto. }
  assert (NIN : forall q, ~ In r (ch q)).
  { intros q I. destruct (wt_child _ _ WT _ _ I) as (a & b & A1 & A2 & A3 & A4 & _). congruence. }
  destruct (insert_before_spec s ch j r None) with (t := t) as (o & FF & Q); auto.
  { exists nj; auto. } { exists m. split; auto. intros [X _]. congruence. } { discriminate. }
  { exists m. split; auto. split; [lia|unfold no_wrap, two32; lia]. } { exists nj. split; auto. split; [lia|unfold no_wrap, two32; lia]. }
  assert (o = None).
  { destruct o as [e|]; auto. exfalso. unfold insert_checks in FF.
    inversion FF as [|P1 e1 r1 X|P1 e1 r1 o1 _ F1]; subst.
    { destruct X as [X _]. unfold owner_of in X. rewrite Hr, Hj in X. apply X. congruence. }
    inversion F1 as [|P2 e2 r2 X|P2 e2 r2 o2 _ F3]; subst. { contradiction. }
    inversion F3 as [|P3 e3 r3 X|P3 e3 r3 o3 _ F4]; subst. { destruct X as (i & X & _). discriminate. }
    inversion F4 as [|P4 e4 r4 X|P4 e4 r4 o4 _ F5]; subst.
    { inversion X as [|i a q A1 A2 A3]; subst; [contradiction|]. congruence. }
    inversion F5 as [|P5 e5 r5 X|P5 e5 r5 o5 _ F6]; subst.
    { destruct X as [_ X]. apply X. exists nj, m. split; [auto|]. split; [auto|]. split; [auto|congruence]. }
    inversion F6 as [|P6 e6 r6 X|P6 e6 r6 o6 _ F7]; subst.
    { destruct X as [_ (q & X & _)]. unfold parent_of in X. rewrite Hr in X. congruence. }
    inversion F7. }
  subst o. destruct Q as [[[X _] _]|[_ (h2 & E2 & W2 & ED)]].
  { unfold type_of in X. rewrite Hr in X. simpl in X. congruence. }
  set (ch2 := inserted (s_heap s) ch j r None) in *.
  assert (CH2 : forall x, ch2 x = if Nat.eqb x j then ch j ++ [r] else ch x).
  { intros x. unfold ch2, inserted, type_of. rewrite Hr. cbn [oid_eqb option_map]. rewrite Tr.
    assert (WJ : forall q, without r (ch q) = ch q) by (intros q; apply without_notin; auto).
    assert (Z : (if Nat.eqb x j then insert_at None [r] (without r (ch j)) else without r (ch x)) = (if Nat.eqb x j then ch j ++ [r] else ch x)).
    { rewrite !WJ. reflexivity. }
    destruct ty; try exact Z. congruence. }
  set (s2 := withh (addlog s (insert_log (s_heap s) j r None t)) h2) in *.
  assert (W2' : wf s2 ch2) by exact W2.
  destruct (ed_some _ _ _ _ ED _ _ Hr) as (m2 & H2r & D1 & D2 & D3 & D4 & D5 & D6 & D7 & D8 & D9 & D10 & D11).
  rewrite Nat.eqb_refl, Rr in D9. change (1 + 1)%N with 2%N in D9.
  assert (P2 : n_parent m2 = Some j).
  { destruct W2' as (_ & WT2 & _). destruct (wt_child _ _ WT2 j r) as (a & b & A1 & _ & _ & A2 & _).
    { rewrite CH2, Nat.eqb_refl. apply in_or_app. right; left; auto. } change (s_heap s2) with h2 in A1. congruence. }
  destruct (unref_spec s2 ch2 r m2 W2' H2r) as (h4 & ch4 & E4 & W4 & R4). { rewrite D9. reflexivity. } { rewrite D9. unfold two32. reflexivity. }
  rewrite D9 in R4. change (1 <? 2)%N with true in R4. cbn [orb] in R4. destruct R4 as [-> ->].
  change (s_heap s2) with h2 in *.
  set (s4 := withh s2 (hmod h2 r ref_down)) in *.
  assert (H4t : s_heap s4 r = Some (ref_down m2)). { change (s_heap s4) with (hmod h2 r ref_down). rewrite hmod_same, H2r. auto. }
  assert (RV : n_ref (ref_down m2) = 1%N). { rewrite ref_down_val; rewrite D9; [reflexivity|reflexivity|unfold two32; reflexivity]. }
  destruct (unref_spec s4 ch2 r _ W4 H4t) as (h5 & ch5 & E5 & W5 & R5). { rewrite RV. reflexivity. } { rewrite RV. unfold two32. reflexivity. }
  change (n_parent (ref_down m2)) with (n_parent m2) in R5. rewrite P2 in R5. cbn [is_none negb] in R5. rewrite orb_true_r in R5.
  destruct R5 as [-> ->]. change (s_heap s4) with (hmod h2 r ref_down) in *.
  set (s5 := withh s4 (hmod (hmod h2 r ref_down) r ref_down)) in *.
  assert (H5o : forall x, x <> r -> s_heap s5 x = h2 x).
  { intros x X. change (s_heap s5) with (hmod (hmod h2 r ref_down) r ref_down). rewrite !hmod_other; auto. }
  assert (H5t : s_heap s5 r = Some (ref_down (ref_down m2))).
  { change (s_heap s5) with (hmod (hmod h2 r ref_down) r ref_down). rewrite hmod_same, H4t. auto. }
  exists s2, s4, s5. split. { unfold try, append_child. rewrite E2. reflexivity. }
  split; [exact E4|]. split; [exact E5|].
  split; [reflexivity|]. split.
  { eapply wf_ch_ext; [|exact W5]. exact CH2. }
  assert (WT2 : wfT h2 ch2) by (destruct W2' as (_ & ? & _); auto).
  split; [|split].
  - intros x n Hx NX. destruct (ed_some _ _ _ _ ED _ _ Hx) as (n' & A & B1 & B2 & B3 & B4 & B5 & B6 & B7 & B8 & B9 & B10 & B11).
    apply Nat.eqb_neq in NX as NX'. rewrite NX' in B9. exists n'. rewrite H5o by auto. split; auto. split; [repeat split; auto|]. split; [|split; auto].
    + destruct (ntype_eqb (n_type n) ATTRIBUTE) eqn:TA.
      * apply ntype_eqb_eq in TA.
        destruct (n_parent n) as [q|] eqn:P.
        -- destruct (wt_parent _ _ WT _ _ _ Hx P) as (nq & Q1 & _ & Q2). specialize (Q2 TA).
           destruct (ed_some _ _ _ _ ED _ _ Q1) as (nq' & Q1' & _ & Q3 & _). rewrite <- Q3 in Q2.
           destruct (wt_attrs _ _ WT2 _ _ Q1') as (_ & _ & Z). destruct (Z _ Q2) as (a & Z1 & _ & Z2). congruence.
        -- destruct (n_parent n') as [q|] eqn:P'; auto. exfalso.
           destruct (wt_parent _ _ WT2 _ _ _ A P') as (nq' & Q1' & _ & Q2). rewrite B1 in Q2. specialize (Q2 TA).
           destruct (s_heap s q) as [nq|] eqn:Q1. 2:{ rewrite (ed_none _ _ _ _ ED _ Q1) in Q1'. discriminate. }
           destruct (ed_some _ _ _ _ ED _ _ Q1) as (nq2 & Q1'' & _ & Q3 & _). assert (nq2 = nq') by congruence; subst. rewrite Q3 in Q2.
           destruct (wt_attrs _ _ WT _ _ Q1) as (_ & _ & Z). destruct (Z _ Q2) as (a & Z1 & _ & Z2). congruence.
      * apply ntype_eqb_neq in TA. destruct (n_parent n) as [q|] eqn:P.
        -- destruct (wt_parent _ _ WT _ _ _ Hx P) as (nq & Q1 & Q2 & _). destruct (Q2 TA) as [I _].
           destruct (wt_child _ _ WT2 q x) as (a & b & A1 & _ & _ & A2 & _).
           { rewrite CH2. destruct (Nat.eqb_spec q j) as [->|]; auto. apply in_or_app; auto. } congruence.
        -- destruct (n_parent n') as [q|] eqn:P'; auto. exfalso.
           destruct (wt_parent _ _ WT2 _ _ _ A P') as (nq' & Q1' & Q2 & _). rewrite B1 in Q2. destruct (Q2 TA) as [I _].
           assert (I' : In x (ch q)).
           { rewrite CH2 in I. destruct (Nat.eqb_spec q j) as [->|]; auto. apply in_app_or in I. destruct I as [I|[I|[]]]; auto. congruence. }
           destruct (wt_child _ _ WT _ _ I') as (a & b & A1 & _ & _ & A2 & _). congruence.
    + intros X. destruct (B11 X) as [Y|Y]; auto. congruence.
  - intros x Hx. destruct (Nat.eq_dec x r) as [->|NX]; [congruence|]. rewrite H5o by auto. apply (ed_none _ _ _ _ ED); auto.
  - exists m, (ref_down (ref_down m2)). split; auto. split; auto. split; [repeat split; auto|exact D2].
Qed.

Lemma keeps_top : forall x s s' ch ch' d ty j, keeps x s s' ch ch' -> top_copy s d ty j -> top_copy s' d ty j.
Proof.
  intros x s s' ch ch' d ty j K (m & A1 & A2 & A3 & A4 & A5 & A6 & A7). destruct (kp_node _ _ _ _ _ K _ _ A1) as (m' & B1 & CE & B2 & B3 & B4).
  destruct CE as (C1&C2&C3&C4&C5&C6&C7&C8&C9). exists m'. split; auto. split; [congruence|]. split; [congruence|]. split; [congruence|].
  split; [destruct B3; congruence|]. split; auto. congruence.
Qed.

Lemma top_not_ro : forall s d ty j, top_copy s d ty j -> In ty [ELEMENT; FRAGMENT; ATTRIBUTE] -> ~ read_only (s_heap s) j.
Proof.
  intros s d ty j (m & A1 & A2 & A3 & A4 & A5 & A6 & A7) T (n & B1 & B2). assert (n = m) by congruence; subst n. rewrite A4 in B2.
  assert (NT : forall u, ty = u -> u <> DOCTYPE /\ u <> NOTATION /\ u <> ENTITY /\ u <> ENTITY_REFERENCE).
  { intros u <-. destruct T as [<-|[<-|[<-|[]]]]; repeat split; discriminate. }
  destruct (NT ty eq_refl) as (N1 & N2 & N3 & N4).
  destruct B2 as [B|[B|[[_ B]|(_ & a & na & X & Y & Z)]]]; try congruence.
  inversion X as [|i n p E F G]; subst.
  - assert (na = m) by congruence; subst na. destruct Z; congruence.
  - assert (n = m) by congruence; subst n. congruence.
Qed.

(** Giving an element just made a copy of an attribute. *)
Lemma attach_attr : forall s ch d nd j b nj, wf s ch -> s_heap s d = Some nd -> n_type nd = DOCUMENT -> top_copy s d ATTRIBUTE b ->
  s_heap s j = Some nj -> n_type nj = ELEMENT -> n_owner nj = Some d -> ~ read_only (s_heap s) j ->
  exists sa sb sc s', upd b (set_parent (Some j)) s = Ok tt sa /\ remove_pending b sa = Ok tt sb /\ node_unref b sb = Ok tt sc /\ s_heap sc j = Some nj /\
    upd j (set_attrs (n_attrs nj ++ [b])) sc = Ok tt s' /\ s_nxt s' = s_nxt s /\ wf s' ch /\ s_heap s' j = Some (set_attrs (n_attrs nj ++ [b]) nj) /\
    (forall x n, s_heap s x = Some n -> x <> b -> x <> j -> exists n', s_heap s' x = Some n' /\ core_eq n n' /\ n_parent n' = n_parent n /\ n_owner n' = n_owner n /\ n_pending n' = n_pending n) /\
    (forall x, s_heap s x = None -> s_heap s' x = None) /\
    (exists m m', s_heap s b = Some m /\ s_heap s' b = Some m' /\ field_eq m m' /\ n_attrs m' = n_attrs m).
Proof.
  intros s ch d nd j b nj W Hd Td (m & Hb & Pb & Rb & Tb & Ob & Qb & Nb) Hj Tj Oj RO.
  assert (JB : j <> b) by (intros ->; congruence). assert (JD : j <> d) by (intros ->; congruence). assert (BD : b <> d) by (intros ->; congruence).
  set (h := s_heap s) in *. set (h1 := hmod h b (set_parent (Some j))). set (sa := withh s h1).
  assert (H1b : h1 b = Some (set_parent (Some j) m)) by (unfold h1; rewrite hmod_same, Hb; auto).
  assert (H1d : h1 d = Some nd) by (unfold h1; rewrite hmod_other; auto).
  set (h2 := hmod (hmod h1 d (fun n => set_pend (remove_id b (n_pend n)) n)) b (set_pending false)). set (sb := withh s h2).
  assert (H2b : h2 b = Some (set_pending false (set_parent (Some j) m))). { unfold h2. rewrite hmod_same, hmod_other, H1b by auto. reflexivity. }
  set (h3 := hmod h2 b ref_down). set (sc := withh s h3).
  assert (H3b : h3 b = Some (ref_down (set_pending false (set_parent (Some j) m)))). { unfold h3. rewrite hmod_same, H2b. reflexivity. }
  assert (H3j : h3 j = Some nj). { unfold h3, h2, h1. rewrite !hmod_other by auto. exact Hj. }
  set (h4 := hmod h3 j (set_attrs (n_attrs nj ++ [b]))).
  exists sa, sb, sc, (withh s h4). split; [apply (upd_ok s b m); auto|]. split.
  { unfold remove_pending. step (load_ok sa b _ H1b). cbn [set_parent n_owner n_pending]. rewrite Ob, Qb. cbn [assert_]. rewrite bind_ret.
    unfold pend_del. step (upd_ok sa d nd (fun n => set_pend (remove_id b (n_pend n)) n) H1d). set (h1' := hmod (s_heap sa) d _).
    assert (X : h1' b = Some (set_parent (Some j) m)). { unfold h1'. rewrite hmod_other; auto. }
    rewrite (upd_ok (withh sa h1') b _ (set_pending false) X). reflexivity. }
  split.
  { unfold node_unref. fold ref_down. change (fun n : node => set_ref (u32 (n_ref n + (two32 - 1))) n) with ref_down. step (upd_ok sb b _ ref_down H2b). change (withh sb (hmod (s_heap sb) b ref_down)) with sc.
    step (load_ok sc b _ H3b). assert (Z : (n_ref (ref_down (set_pending false (set_parent (Some j) m))) =? 0)%N = true).
    { rewrite ref_down_val; cbn [n_ref set_pending set_parent]; rewrite Rb; [reflexivity|reflexivity|unfold two32; reflexivity]. }
    rewrite Z. cbn [when]. unfold try_destroy, with_fuel, try_destroy_with. rewrite (bind_ok _ _ _ _ _ _ _ _ (load_ok sc b _ H3b)). reflexivity. }
  split; [exact H3j|]. split; [apply (upd_ok sc j nj); auto|]. split; [reflexivity|].
  (* the same heap before the reference went *)
  set (g := hmod (hmod h2 j (set_attrs (n_attrs nj ++ [b]))) b (fun n => n)).
  assert (OW : owned h g j b d).
  { split.
    - intros x X. unfold g, h2, h1. rewrite !hmod_none. exact X.
    - intros x n X. unfold own, g, h2, h1. destruct (Nat.eqb_spec x b) as [->|N1].
      + rewrite hmod_same. rewrite hmod_other by auto. rewrite hmod_same. rewrite hmod_other by auto. rewrite hmod_same, X. reflexivity.
      + rewrite hmod_other by auto. destruct (Nat.eqb_spec x d) as [->|N2].
        * rewrite hmod_other by auto. rewrite hmod_other by auto. rewrite hmod_same, hmod_other, X by auto. reflexivity.
        * destruct (Nat.eqb_spec x j) as [->|N3].
          -- rewrite hmod_same. rewrite !hmod_other by auto. rewrite X. assert (n = nj) by congruence. subst n. reflexivity.
          -- rewrite !hmod_other by auto. exact X. }
  assert (WG : wf (withh s g) ch) by (eapply (sn_wf s ch j b d nj m nd); eauto).
  assert (HB : h4 b = Some (ref_down (set_pending false (set_parent (Some j) m)))). { unfold h4. rewrite hmod_other by auto. exact H3b. }
  assert (HG : forall x, x <> b -> h4 x = g x).
  { intros x X. unfold h4, g, h3. destruct (Nat.eq_dec x j) as [->|N].
    - rewrite hmod_same. rewrite !hmod_other by auto. rewrite hmod_same. reflexivity.
    - rewrite !hmod_other by auto. reflexivity. }
  assert (GB : g b = Some (set_pending false (set_parent (Some j) m))) by (apply (sn_a s j b d m Hb g OW)).
  assert (SS : same_struct g h4).
  { split; intros x.
    - intros X. destruct (Nat.eq_dec x b) as [->|N]; [congruence|]. rewrite HG; auto.
    - intros n X. destruct (Nat.eq_dec x b) as [->|N].
      + assert (n = set_pending false (set_parent (Some j) m)) by congruence. subst n. eexists. split; [exact HB|apply struct_eq_ref_down].
      + exists n. rewrite HG by auto. split; auto. repeat split. }
  split.
  { destruct WG as (WL & WT & WO & WR). split; [|split; [|split]]; [eapply same_wfL; eauto|eapply same_wfT; eauto|eapply same_wfO; eauto|].
    change (s_heap (withh s g)) with g in WR. change (s_heap (withh s h4)) with h4. constructor.
    - intros x n X P T. destruct (Nat.eq_dec x b) as [->|N]; [rewrite HB in X; injection X as <-; discriminate|]. rewrite HG in X by auto. eapply wr_top; eauto.
    - intros x n X T. destruct (Nat.eq_dec x b) as [->|N]; [rewrite HB in X; injection X as <-; cbn in T; congruence|]. rewrite HG in X by auto. eapply wr_doc; eauto. }
  split. { change (s_heap (withh s h4)) with h4. rewrite HG by auto. eapply (sn_e s j b d nj m nd); eauto. }
  split; [|split].
  - intros x n X N1 N2. change (s_heap (withh s h4)) with h4. rewrite HG by auto. rewrite (ow_some _ _ _ _ _ OW _ _ X). eexists. split; [reflexivity|].
    unfold own. apply Nat.eqb_neq in N1. apply Nat.eqb_neq in N2. rewrite N1, N2. destruct (Nat.eqb x d); repeat split.
  - intros x X. change (s_heap (withh s h4)) with h4. rewrite HG by (intros ->; congruence). apply (ow_none _ _ _ _ _ OW). exact X.
  - exists m. eexists. split; [exact Hb|]. split; [exact HB|]. repeat split.
Qed.

Section CloneTree.
  Variable d : id.

  Definition doc_there (s : st) : Prop := exists nd, s_heap s d = Some nd /\ n_type nd = DOCUMENT.
  Lemma keeps_doc : forall x s s' ch ch', keeps x s s' ch ch' -> doc_there s -> doc_there s'.
  Proof.
    intros x s s' ch ch' K (nd & A & B). destruct (kp_node _ _ _ _ _ K _ _ A) as (n' & A' & (C & _) & _). exists n'. split; auto. congruence.
  Qed.

  Definition clones (t : rose) : Prop := forall f s ch n, wf s ch -> doc_there s -> src (s_heap s) ch d t -> s_heap s (root t) = Some n ->
    length (nodes t) <= f ->
    exists s' ch', clone_with f true (root t) s = Ok (Fresh (s_nxt s)) s' /\ wf s' ch' /\ keeps (s_nxt s) s s' ch ch' /\
      top_copy s' d (n_type n) (s_nxt s) /\ cp (s_nxt s) (s_heap s) (s_heap s') ch' t (s_nxt s).

  (** What giving attributes to [x] leaves as it was. *)
  Record grows (x : id) (s s' : st) (ch ch' : id -> list id) : Prop := mkGrows {
    gw_nxt : s_nxt s <= s_nxt s';
    gw_node : forall j n, s_heap s j = Some n -> j <> x -> exists n', s_heap s' j = Some n' /\ core_eq n n' /\ n_parent n' = n_parent n /\
       (n_owner n' = n_owner n \/ n_owner n = None) /\ (n_pending n = true -> n_pending n' = true);
    gw_ch : forall j, live (s_heap s) j -> ch' j = ch j;
    gw_new : forall j, s_heap s j = None -> live (s_heap s') j -> s_nxt s <= j
  }.
  Lemma grows_refl : forall x s ch, grows x s s ch ch.
  Proof.
    intros x s ch. constructor; auto.
    - intros j n H _. exists n. split; auto. split; [apply core_eq_refl|]. auto.
    - intros j H (n & L). congruence.
  Qed.
  Lemma grows_trans : forall x s1 s2 s3 ch1 ch2 ch3, wfL (s_heap s1) (s_nxt s1) -> live (s_heap s1) x -> live (s_heap s2) x -> grows x s1 s2 ch1 ch2 -> grows x s2 s3 ch2 ch3 -> grows x s1 s3 ch1 ch3.
  Proof.
    intros x s1 s2 s3 ch1 ch2 ch3 WL LX LX2 [A1 A2 A3 A4] [B1 B2 B3 B4]. constructor.
    - lia.
    - intros j n H NE. destruct (A2 _ _ H NE) as (n2 & H2 & C2 & P2 & O2 & Q2). destruct (B2 _ _ H2 NE) as (n3 & H3 & C3 & P3 & O3 & Q3).
      exists n3. split; auto. split; [eapply core_eq_trans; eauto|]. split; [congruence|]. split; auto.
      destruct O2 as [O2|O2]; auto. rewrite <- O2. destruct O3 as [O3|O3]; auto.
    - intros j L. rewrite B3; auto. destruct (Nat.eq_dec j x) as [->|NE]; auto. destruct L as (n & H). destruct (A2 _ _ H NE) as (n2 & H2 & _). exists n2; auto.
    - intros j H L. destruct (s_heap s2 j) as [n2|] eqn:H2; [apply A4; auto; exists n2; auto|]. specialize (B4 _ H2 L). lia.
  Qed.
  Lemma grows_keeps : forall x s1 s2 s3 ch1 ch2 ch3, s_heap s1 x = None -> keeps x s1 s2 ch1 ch2 -> grows x s2 s3 ch2 ch3 -> keeps x s1 s3 ch1 ch3.
  Proof.
    intros x s1 s2 s3 ch1 ch2 ch3 NX [A1 A2 A3 A4] [B1 B2 B3 B4]. constructor.
    - lia.
    - intros j n H. assert (NE : j <> x) by (intros ->; congruence). destruct (A2 _ _ H) as (n2 & H2 & C2 & P2 & O2 & Q2). destruct (B2 _ _ H2 NE) as (n3 & H3 & C3 & P3 & O3 & Q3).
      exists n3. split; auto. split; [eapply core_eq_trans; eauto|]. split; [congruence|]. split; auto.
      destruct O2 as [O2|O2]; auto. rewrite <- O2. destruct O3 as [O3|O3]; auto.
    - intros j L NE. rewrite B3; auto. destruct L as (n & H). destruct (A2 _ _ H) as (n2 & H2 & _). exists n2; auto.
    - intros j H L. destruct (s_heap s2 j) as [n2|] eqn:H2; [apply A4; auto; exists n2; auto|]. specialize (B4 _ H2 L). lia.
  Qed.
  Lemma grows_doc : forall x s s' ch ch', grows x s s' ch ch' -> x <> d -> doc_there s -> doc_there s'.
  Proof.
    intros x s s' ch ch' K NE (nd & A & B). destruct (gw_node _ _ _ _ _ K _ _ A) as (n' & A' & (C & _) & _); [auto|]. exists n'. split; auto. congruence.
  Qed.
  Lemma src_grows : forall x s s' ch ch' t, grows x s s' ch ch' -> ~ In x (nodes t) -> src (s_heap s) ch d t -> src (s_heap s') ch' d t.
  Proof.
    intros x s s' ch ch' t K NI S. eapply src_frame; [|exact S]. intros j n I A. destruct (gw_node _ _ _ _ _ K _ _ A) as (n' & A' & CE & _ & O & _). { intros ->. contradiction. }
    exists n'. split; auto. split; auto. split; auto. apply (gw_ch _ _ _ _ _ K). exists n; auto.
  Qed.

  Lemma clone_attrs_ok : forall f ats, Forall clones ats -> forall s ch j, wf s ch -> doc_there s -> Forall (src (s_heap s) ch d) ats ->
    Forall (fun t => type_of (s_heap s) (root t) = Some ATTRIBUTE) ats -> top_copy s d ELEMENT j -> (forall k, In k ats -> ~ In j (nodes k)) ->
    length (flat_map nodes ats) <= f ->
    exists s' ch' bs m m', clone_attrs (clone_with f true) j (map root ats) s = Ok tt s' /\ wf s' ch' /\ grows j s s' ch ch' /\ top_copy s' d ELEMENT j /\
      s_heap s j = Some m /\ s_heap s' j = Some m' /\ field_eq m m' /\ n_attrs m' = n_attrs m ++ bs /\ Forall2 (cp (s_nxt s) (s_heap s) (s_heap s') ch') ats bs.
  Proof.
    intros f. induction ats as [|t ats IH]; intros FC s ch j W DT FS FT TJ NJ LF.
    - destruct TJ as (m & HJ & TJ'). exists s, ch, [], m, m. split; [reflexivity|]. split; auto. split; [apply grows_refl|]. split; [exists m; auto|]. split; auto. split; auto. split; [repeat split|].
      split; [rewrite app_nil_r; auto|constructor].
    - inversion FC as [|? ? CT FC']; subst. inversion FS as [|? ? ST FS']; subst. inversion FT as [|? ? TT FT']; subst. pose proof W as (WL & WT & WO & WR).
      cbn [flat_map] in LF. rewrite app_length in LF. destruct (s_heap s (root t)) as [nt|] eqn:Ht; [|unfold type_of in TT; rewrite Ht in TT; discriminate].
      assert (TA : n_type nt = ATTRIBUTE) by (unfold type_of in TT; rewrite Ht in TT; cbn in TT; congruence).
      destruct (CT f s ch nt W DT ST Ht) as (s1 & ch1 & E1 & W1 & K1 & T1 & C1); [lia|]. set (b := s_nxt s) in *. rewrite TA in T1.
      assert (NB : s_heap s b = None) by (apply (nxt_fresh _ _ W)).
      assert (TJ1 : top_copy s1 d ELEMENT j) by (eapply keeps_top; eauto).
      assert (BJ : b <> j). { destruct TJ as (a & A & _). congruence. }
      destruct (keeps_doc _ _ _ _ _ K1 DT) as (nd & Hd & Td). pose proof TJ1 as (nj & J1 & J2 & J3 & J4 & J5 & J6 & J7).
      destruct TJ as (m & HJ & TJ'). destruct (kp_node _ _ _ _ _ K1 _ _ HJ) as (nj' & J1' & CEJ & _). assert (nj' = nj) by congruence. subst nj'.
      destruct (attach_attr s1 ch1 d nd j b nj W1 Hd Td T1 J1 J4 J5) as (sa & sb & sc & s4 & Ea & Eb & Ec & Hc & E4 & NX4 & W4 & HJ4 & OLD4 & NONE4 & (mb & mb' & M1 & M2 & M3 & M4)).
      { eapply top_not_ro; eauto. left; auto. }
      assert (JD : j <> d) by (intros ->; congruence).
      assert (G4 : grows j s s4 ch ch1).
      { constructor.
        - pose proof (kp_nxt _ _ _ _ _ K1). lia.
        - intros x n Hx NE. destruct (kp_node _ _ _ _ _ K1 _ _ Hx) as (n1 & Hx1 & CE1 & P1 & O1 & Q1).
          destruct (OLD4 _ _ Hx1) as (n4 & Hx4 & CE4 & P4 & O4 & Q4); [intros ->; congruence|auto|].
          exists n4. split; auto. split; [eapply core_eq_trans; eauto|]. split; [congruence|]. split; [rewrite O4; auto|]. rewrite Q4. auto.
        - intros x L. apply (kp_ch _ _ _ _ _ K1); auto. intros ->. destruct L as (a & A). congruence.
        - intros x X (a & L). apply (kp_new _ _ _ _ _ K1); auto. destruct (s_heap s1 x) as [c|] eqn:B; [exists c; auto|]. rewrite (NONE4 _ B) in L. discriminate. }
      assert (C4 : cp b (s_heap s) (s_heap s4) ch1 t b).
      { eapply cp_target; [exact C1| |auto]. intros x a A LE. destruct (Nat.eq_dec x b) as [->|NE].
        - assert (a = mb) by congruence; subst a. exists mb'. auto.
        - assert (NEJ : x <> j). { intros ->. pose proof (WL _ _ HJ). unfold b in LE. lia. }
          destruct (OLD4 _ _ A NE NEJ) as (n4 & Hx4 & CE4 & _). exists n4. split; auto. destruct CE4 as (X1&X2&X3&X4&X5&X6&_). repeat split; auto. }
      assert (TJ4 : top_copy s4 d ELEMENT j). { eexists. split; [exact HJ4|]. repeat split; auto. }
      destruct (IH FC' s4 ch1 j) as (s' & ch' & bs & m4 & m' & E' & W' & G' & T' & HM4 & HM' & FE & AT & F2); auto.
      { eapply grows_doc; eauto. }
      { rewrite Forall_forall in *. intros k I. eapply src_grows; [exact G4| |]; auto. apply NJ. right; auto. }
      { rewrite Forall_forall in *. intros k I. pose proof (FT' k I) as X. unfold type_of in *. destruct (s_heap s (root k)) as [nk|] eqn:Y; [|discriminate].
        destruct (gw_node _ _ _ _ _ G4 _ _ Y) as (nk' & Y' & (CE & _) & _). { intros Z. apply (NJ k); [right; auto|]. rewrite <- Z. apply root_in_nodes. } rewrite Y'. cbn in *. congruence. }
      { intros k I. apply NJ. right; auto. }
      { lia. }
      assert (m4 = set_attrs (n_attrs nj ++ [b]) nj) by congruence. subst m4.
      exists s', ch', (b :: bs), m, m'. split.
      { cbn [map clone_attrs]. step E1. step Ea. step Eb. step Ec. step (load_ok _ _ _ Hc). step E4. exact E'. }
      split; auto. split; [eapply grows_trans; eauto; [exists m; auto|eexists; exact HJ4]|]. split; auto. split; auto. split; auto.
      destruct CEJ as (X1&X2&X3&X4&X5&X6&_). split. { destruct FE as (Y1&Y2&Y3&Y4&Y5). cbn [set_attrs n_type n_name n_value n_ns n_prefix] in *. repeat split; congruence. }
      split. { rewrite AT. cbn [set_attrs n_attrs]. rewrite X2, <- app_assoc. reflexivity. }
      constructor.
      + eapply cp_target; [exact C4| |].
        * intros x a A LE. assert (NEJ : x <> j). { intros ->. pose proof (WL _ _ HJ). unfold b in LE. lia. } destruct (gw_node _ _ _ _ _ G' _ _ A NEJ) as (c & B & CE & _). exists c. split; auto.
          destruct CE as (Z1&Z2&Z3&Z4&Z5&Z6&_). repeat split; auto.
        * intros x L LE. apply (gw_ch _ _ _ _ _ G'); auto.
      + assert (LE4 : s_nxt s <= s_nxt s4) by (apply (gw_nxt _ _ _ _ _ G4)). assert (NJ' : forall k, In k ats -> ~ In j (nodes k)) by (intros k I; apply NJ; right; auto).
        clear - F2 FS' G4 LE4 NJ'. revert FS' NJ'. induction F2; intros FS' NJ'; constructor.
        * inversion FS' as [|? ? S1 S2]; subst. eapply cp_source; [exact H|exact LE4|]. intros z n Y I.
          destruct (src_live _ _ _ _ S1 z I) as (n0 & Y0). destruct (gw_node _ _ _ _ _ G4 _ _ Y0) as (n4 & Y4 & CE & _). { intros ->. apply (NJ' x); [left; auto|auto]. }
          assert (n4 = n) by congruence; subst n4. exists n0. split; auto. destruct CE as (X1&X2&X3&X4&X5&X6&_). repeat split; auto.
        * apply IHF2; [inversion FS'; auto|]. intros k I. apply NJ'. right; auto.
  Qed.

  Lemma clone_kids_ok : forall f ks, Forall clones ks -> forall g s ch i ni done j ty, wf s ch -> doc_there s -> Forall (src (s_heap s) ch d) ks ->
    s_heap s i = Some ni -> n_type ni = ty -> ch i = done ++ map root ks -> i <> j ->
    top_copy s d ty j -> In ty [ELEMENT; FRAGMENT; ATTRIBUTE] \/ ks = [] -> (forall k, In k ks -> ~ In j (nodes k)) ->
    length (flat_map nodes ks) <= f -> length ks <= g ->
    exists s' ch' js, clone_kids (clone_with f true) g j (hd_error (map root ks)) s = Ok tt s' /\ wf s' ch' /\
      keeps j s s' ch ch' /\ ch' j = ch j ++ js /\ Forall2 (cp (s_nxt s) (s_heap s) (s_heap s') ch') ks js.
  Proof.
    intros f. induction ks as [|t ks IH]; intros FC g s ch i ni done j ty W DT FS Hi Ti CH IJ TJ TY NJ LF LG.
    - exists s, ch, []. split; [destruct g; reflexivity|]. split; auto. split; [apply keeps_refl|]. split; [rewrite app_nil_r; auto|constructor].
    - destruct TY as [TY|TY]; [|discriminate].
      inversion FC as [|? ? CT FC']; subst. inversion FS as [|? ? ST FS']; subst. pose proof W as (WL & WT & WO & WR).
      destruct g as [|g]; [simpl in LG; lia|]. cbn [flat_map] in LF. rewrite app_length in LF.
      assert (IC : In (root t) (ch i)). { rewrite CH. apply in_or_app. right. left. auto. }
      destruct (wt_child _ _ WT _ _ IC) as (nt & ni0 & Ht & Hi0 & TA & PT & PE). assert (ni0 = ni) by congruence; subst ni0.
      destruct (CT f s ch nt W DT ST Ht) as (s1 & ch1 & E1 & W1 & K1 & T1 & C1); [lia|].
      set (r := s_nxt s) in *.
      assert (NR : s_heap s r = None). { apply (nxt_fresh _ _ W). }
      assert (K1j : keeps j s s1 ch ch1). { eapply keeps_weaken; [|exact K1]. left. intros (a & A). congruence. }
      assert (TJ1 : top_copy s1 d (n_type ni) j) by (eapply keeps_top; eauto).
      assert (RJ : r <> j). { destruct TJ as (a & A & _). congruence. }
      destruct (keeps_doc _ _ _ _ _ K1 DT) as (nd & Hd & Td).
      pose proof TJ1 as (nj & J1 & J2 & J3 & J4 & J5 & J6 & J7).
      destruct (append_copy s1 ch1 d nd j r nj (n_type nt)) as (sa & sb & s4 & Ea & Eb & E4 & NX4 & W4 & OLD4 & NONE4 & (m & m' & M1 & M2 & M3 & M4)); auto.
      { intros X. rewrite X in J4. rewrite <- J4 in TY. simpl in TY. decompose [or] TY; try discriminate; try tauto. }
      { intros (_ & X & _). congruence. }
      { eapply top_not_ro; eauto. }
      { intros X. rewrite X in PE. destruct (n_type ni); discriminate. }
      { rewrite J4. apply nests_iff. auto. }
      set (ch4 := fun x => if Nat.eqb x j then ch1 j ++ [r] else ch1 x) in *.
      assert (K4 : keeps j s s4 ch ch4).
      { constructor.
        - pose proof (kp_nxt _ _ _ _ _ K1). lia.
        - intros x n Hx. destruct (kp_node _ _ _ _ _ K1 _ _ Hx) as (n1 & Hx1 & CE1 & P1 & O1 & Q1).
          destruct (OLD4 _ _ Hx1) as (n4 & Hx4 & CE4 & P4 & O4 & Q4). { intros ->. congruence. }
          exists n4. split; auto. split; [eapply core_eq_trans; eauto|]. split; [congruence|]. split; auto.
          destruct O1 as [O1|O1]; auto. rewrite <- O1. destruct O4 as [O4|O4]; auto.
        - intros x L NE. unfold ch4. apply Nat.eqb_neq in NE. rewrite NE. apply (kp_ch _ _ _ _ _ K1); auto. intros ->. destruct L as (a & A). congruence.
        - intros x X (a & L). apply (kp_new _ _ _ _ _ K1); auto. destruct (s_heap s1 x) as [b|] eqn:B; [exists b; auto|]. rewrite (NONE4 _ B) in L. discriminate. }
      assert (C4 : cp r (s_heap s) (s_heap s4) ch4 t r).
      { eapply cp_target; [exact C1| |].
        - intros x a A LE. destruct (Nat.eq_dec x r) as [->|NE].
          + assert (a = m) by congruence; subst a. exists m'. auto.
          + destruct (OLD4 _ _ A NE) as (n4 & Hx4 & CE4 & _). exists n4. split; auto. destruct CE4 as (X1&X2&X3&X4&X5&X6&_). repeat split; auto.
        - intros x L LE. unfold ch4. destruct (Nat.eqb_spec x j) as [->|]; auto. destruct TJ as (a & A & _). pose proof (WL _ _ A). unfold r in LE. lia. }
      assert (Hi4 : exists ni4, s_heap s4 i = Some ni4 /\ n_type ni4 = n_type ni).
      { destruct (kp_node _ _ _ _ _ K4 _ _ Hi) as (a & A & (B & _) & _). exists a. auto. }
      destruct Hi4 as (ni4 & Hi4 & Ti4).
      assert (CH4 : ch4 i = (done ++ [root t]) ++ map root ks).
      { rewrite (kp_ch _ _ _ _ _ K4) by (auto; exists ni; auto). rewrite CH. rewrite <- app_assoc. reflexivity. }
      assert (NX : exists nt4, s_heap s4 (root t) = Some nt4 /\ n_next nt4 = hd_error (map root ks)).
      { pose proof W4 as (_ & WT4 & _). pose proof (wt_seg _ _ WT4 i) as SG. fold (ch4 i) in SG. change (seg (s_heap s4) i None (ch4 i) None) in SG. rewrite CH4 in SG. rewrite <- app_assoc in SG.
        apply seg_app in SG. destruct SG as [_ SG]. cbn [app seg] in SG. destruct SG as [(a & A1 & _ & _ & _ & A2) _].
        exists a. split; [auto|]. rewrite A2. destruct ks; reflexivity. }
      destruct NX as (nt4 & Ht4 & NX).
      destruct (IH FC' g s4 ch4 i ni4 (done ++ [root t]) j (n_type ni)) as (s' & ch' & js & E' & W' & K' & CJ & F2); auto.
      { eapply keeps_doc; eauto. }
      { rewrite Forall_forall in *. intros k I. eapply src_keeps; [exact K4| |]; auto. apply NJ. right; auto. }
      { eapply keeps_top; eauto. }
      { intros k I. apply NJ. right; auto. }
      { lia. } { simpl in LG. lia. }
      exists s', ch', (r :: js). split.
      { cbn [map hd_error clone_kids].
        assert (E1' : try (clone_with f true (root t)) s = Ok (inl (Fresh r)) s1). { unfold try. rewrite E1. reflexivity. }
        step E1'. step Ea. step Eb. step E4. step (load_ok _ _ _ Ht4). rewrite NX. exact E'. }
      split; auto. split; [eapply keeps_trans; eauto|]. split.
      { rewrite CJ. unfold ch4. rewrite Nat.eqb_refl. rewrite <- app_assoc. cbn [app]. f_equal.
        apply (kp_ch _ _ _ _ _ K1). { destruct TJ as (a & A & _). exists a; auto. } auto. }
      constructor.
      + eapply cp_target; [exact C4| |].
        * intros x a A LE. destruct (kp_node _ _ _ _ _ K' _ _ A) as (b & B & CE & _). exists b. split; auto.
          destruct CE as (X1&X2&X3&X4&X5&X6&_). repeat split; auto.
        * intros x L LE. apply (kp_ch _ _ _ _ _ K'); auto. intros ->. destruct TJ as (a & A & _). pose proof (WL _ _ A). unfold r in LE. lia.
      + assert (LE4 : s_nxt s <= s_nxt s4) by (apply (kp_nxt _ _ _ _ _ K4)).
        clear - F2 FS' K4 LE4. revert FS'. induction F2; intros FS'; constructor.
        * inversion FS' as [|? ? S1 S2]; subst. eapply cp_source; [exact H|exact LE4|]. intros z n Y I.
          destruct (src_live _ _ _ _ S1 z I) as (n0 & Y0). destruct (kp_node _ _ _ _ _ K4 _ _ Y0) as (n4 & Y4 & CE & _).
          assert (n4 = n) by congruence; subst n4. exists n0. split; auto. destruct CE as (X1&X2&X3&X4&X5&X6&_). repeat split; auto.
        * apply IHF2. inversion FS'; auto.
  Qed.

  (** Copying the node itself with its attributes. *)
  Lemma copy_head : forall f i ats s ch n, Forall clones ats -> wf s ch -> doc_there s -> s_heap s i = Some n -> copyable (n_type n) -> n_owner n = Some d ->
    n_attrs n = map root ats -> Forall (src (s_heap s) ch d) ats -> length (flat_map nodes ats) <= f ->
    exists s1 s2 ch2 m, copy_node i s = Ok (Fresh (s_nxt s)) s1 /\ clone_attrs (clone_with f true) (s_nxt s) (n_attrs n) s1 = Ok tt s2 /\ wf s2 ch2 /\ keeps (s_nxt s) s s2 ch ch2 /\
      top_copy s2 d (n_type n) (s_nxt s) /\ ch2 (s_nxt s) = [] /\ s_heap s2 (s_nxt s) = Some m /\ field_eq n m /\ Forall2 (cp (S (s_nxt s)) (s_heap s) (s_heap s2) ch2) ats (n_attrs m).
  Proof.
    intros f i ats s ch n FA W (nd & Hd & Td) A B D C F LF. pose proof W as (WL & WT & WO & WR).
    destruct (copy_node_spec s ch i n d nd W A B D Hd Td) as (s1 & E1 & W1 & K1 & T1 & NX1 & CJ & (m & M1 & M2 & M3)).
    set (j := s_nxt s) in *. assert (NJ : s_heap s j = None) by (apply (nxt_fresh _ _ W)).
    assert (DT1 : doc_there s1). { eapply keeps_doc; [exact K1|]. exists nd; auto. }
    destruct ats as [|t0 ats0].
    { exists s1, s1, ch, m. rewrite C. split; [exact E1|]. split; [reflexivity|]. split; auto. split; auto. split; auto. split; auto. split; auto. split; auto. rewrite M3. constructor. }
    remember (t0 :: ats0) as ats eqn:EA.
    assert (TE : n_type n = ELEMENT). { destruct (wt_attrs _ _ WT _ _ A) as (_ & X & _). apply X. rewrite C, EA. discriminate. }
    assert (NIN : forall k, In k ats -> ~ In j (nodes k)).
    { intros k I X. rewrite Forall_forall in F. destruct (src_live _ _ _ _ (F _ I) _ X) as (a & Y). congruence. }
    rewrite TE in *. destruct (clone_attrs_ok f ats FA s1 ch j) as (s2 & ch2 & bs & m1 & m2 & E2 & W2 & G2 & T2 & HM1 & HM2 & FE & AT & F2); auto.
    { rewrite Forall_forall in *. intros k I. eapply src_keeps; [exact K1|apply NIN; auto|auto]. }
    { rewrite Forall_forall. intros k I. destruct (wt_attrs _ _ WT _ _ A) as (_ & _ & X). destruct (X (root k)) as (a & Y & Z & _). { rewrite C. apply in_map; auto. }
      destruct (kp_node _ _ _ _ _ K1 _ _ Y) as (a' & Y' & (CE & _) & _). unfold type_of. rewrite Y'. cbn. congruence. }
    assert (m1 = m) by congruence. subst m1. exists s1, s2, ch2, m2. split; auto. rewrite C. split; auto. split; auto. split; [eapply grows_keeps; eauto|]. split; auto.
    split. { rewrite (gw_ch _ _ _ _ _ G2); auto. exists m; auto. } split; auto.
    split. { destruct M2 as (Y1&Y2&Y3&Y4&Y5), FE as (Z1&Z2&Z3&Z4&Z5). repeat split; congruence. }
    rewrite AT, M3. cbn [app]. clear - F2 F K1 NX1. revert F. induction F2; intros F; constructor.
    * inversion F as [|? ? S1 S2]; subst. eapply cp_source; [exact H|lia|]. intros z n0 Y I.
      destruct (src_live _ _ _ _ S1 z I) as (n1 & Y1). destruct (kp_node _ _ _ _ _ K1 _ _ Y1) as (n4 & Y4 & CE & _).
      assert (n4 = n0) by congruence; subst n4. exists n1. split; auto. destruct CE as (X1&X2&X3&X4&X5&X6&_). repeat split; auto.
    * apply IHF2. inversion F; auto.
  Qed.

  Lemma clones_all : forall t, clones t.
  Proof.
    intros t. induction t as [i ats ks IHA IH] using rose_ind2. intros f s ch n W DT S Hn LF. cbn [root] in Hn.
    inversion S as [? ? ? n0 A B C D E F G]; subst. assert (n0 = n) by congruence; subst n0.
    destruct f as [|f]; [simpl in LF; lia|]. cbn [nodes length] in LF. rewrite app_length in LF.
    destruct (copy_head f i ats s ch n IHA W DT A B D C F) as (s1 & s2 & ch2 & m & E1 & E2 & W2 & K2 & T2 & CJ & M1 & M2 & MA); [lia|].
    set (j := s_nxt s) in *. assert (NJ : s_heap s j = None) by (apply (nxt_fresh _ _ W)).
    destruct (kp_node _ _ _ _ _ K2 _ _ A) as (n1 & A1 & (CE1 & _) & _).
    assert (NIN : forall k, In k ks -> ~ In j (nodes k)).
    { intros k I X. rewrite Forall_forall in G. destruct (src_live _ _ _ _ (G _ I) _ X) as (a & Y). congruence. }
    destruct (clone_kids_ok f ks IH f s2 ch2 i n1 [] j (n_type n)) as (s' & ch' & js & E' & W' & K' & CJ' & F2); auto.
    { eapply keeps_doc; eauto. }
    { rewrite Forall_forall in *. intros k I. eapply src_keeps; [exact K2|apply NIN; auto|auto]. }
    { cbn [app]. rewrite <- E. apply (kp_ch _ _ _ _ _ K2); [exists n; auto|intros ->; congruence]. }
    { intros ->. congruence. }
    { destruct ks as [|k ks]; auto. left. pose proof W as (_ & WT & _).
      destruct (wt_child _ _ WT i (root k)) as (a & b & X1 & X2 & X3 & X4 & X5). { rewrite E. left; auto. }
      assert (b = n) by congruence; subst b. unfold copyable in B. simpl in B.
      destruct B as [B|[B|[B|[B|[B|[B|[]]]]]]]; rewrite <- B in *; simpl; auto; destruct (n_type a); discriminate. }
    { lia. }
    { clear - LF. assert (length ks <= length (flat_map nodes ks)). { clear. induction ks as [|[a b c] ks]; simpl; auto. rewrite app_length. lia. } lia. }
    exists s', ch'. split.
    { cbn [root clone_with]. step (load_ok _ _ _ A). rewrite D. rewrite bind_ret. step E1. step E2.
      cbn [orb]. assert (FI : n_first n = hd_error (map root ks)). { destruct W as (_ & WT & _). rewrite <- E. apply (wt_ends _ _ WT); auto. }
      rewrite FI. step E'. reflexivity. }
    assert (WL : wfL (s_heap s) (s_nxt s)) by (destruct W; auto).
    split; auto. split; [eapply keeps_trans; eauto|]. split; [eapply keeps_top; eauto|].
    destruct (kp_node _ _ _ _ _ K' _ _ M1) as (m' & M1' & CE & _).
    destruct CE as (X1&X2&X3&X4&X5&X6&_).
    apply (cp_T _ _ _ _ i ats ks j n m'); auto.
    - destruct M2 as (Y1&Y2&Y3&Y4&Y5). repeat split; congruence.
    - rewrite X2. clear - MA K'. induction MA; constructor; auto. apply cp_source with (nx := S j) (h := s_heap s); [|lia|intros z n0 Y I; exists n0; split; [exact Y|repeat split]].
      eapply cp_target; [exact H| |].
      * intros z a A LE. destruct (kp_node _ _ _ _ _ K' _ _ A) as (c & B & CE & _). exists c. split; auto. destruct CE as (Z1&Z2&Z3&Z4&Z5&Z6&_). repeat split; auto.
      * intros z L LE. apply (kp_ch _ _ _ _ _ K'); auto. lia.
    - rewrite CJ', CJ. cbn [app]. clear - F2 G K2. assert (NX1 : s_nxt s <= s_nxt s2) by (apply (kp_nxt _ _ _ _ _ K2)). revert G. induction F2; intros F; constructor.
      * inversion F as [|? ? S1 S2]; subst. eapply cp_source; [exact H|unfold j; lia|]. intros z n0 Y I.
        destruct (src_live _ _ _ _ S1 z I) as (n1 & Y1). destruct (kp_node _ _ _ _ _ K2 _ _ Y1) as (n4 & Y4 & CE & _).
        assert (n4 = n0) by congruence; subst n4. exists n1. split; auto. destruct CE as (X1&X2&X3&X4&X5&X6&_). repeat split; auto.
      * apply IHF2. inversion F; auto.
  Qed.
End CloneTree.
