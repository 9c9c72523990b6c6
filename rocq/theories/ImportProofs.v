(** importNode and adoptNode on the states clients reach. *)
From Coq Require Import List Arith NArith Bool Lia ZifyBool ZifyNat ZifyN.
From Verif Require Import Base HeapModel HeapSpec HeapInv HeapExec HeapTree HeapLoops HeapFrame HeapOps HeapRemoveOp HeapUnref HeapCreate
  HistModel HistProofs TreeSpec TreeProofs WalkModel WalkSpec WalkProofs WalkReach ContentModel ContentSpec HeapContent HeapClone ContentProofs ContentClone
  ImportModel ImportSpec HeapImport.
Import ListNotations.
Local Open Scope dom_scope.

(** What both calls start with. *)
Lemma dup_deep : forall k s g i doc ad, reach k s g -> short k -> usable_by g i -> live (s_heap s) doc -> importable (s_heap s) i ->
  (ad = true -> ~ read_only (s_heap s) i) ->
  exists ch s' ch' t d n, wf s ch /\ dup_with (fuel_of s) doc true ad i s = Ok (Fresh (s_nxt s)) s' /\ wf s' ch' /\ keeps (s_nxt s) s s' ch ch' /\
    s_heap s i = Some n /\ n_owner n = Some d /\ repr (s_heap s) t /\ root t = i /\
    top_copy s' d (n_type n) (s_nxt s) /\ cp (s_nxt s) (s_heap s) (s_heap s') ch' t (s_nxt s).
Proof.
  intros k s g i doc ad R SH [UH UU] LD CP AD. destruct (reach_good _ _ _ R SH) as [[ch W] AG]. pose proof W as (WL & WT & WO & WR).
  assert (LI : live (s_heap s) i).
  { destruct (s_heap s i) as [n|] eqn:E; [exists n; auto|]. unfold holds in UH. rewrite (ag_dead _ _ _ AG _ E) in UH. lia. }
  destruct (tree_exists _ _ _ WL WT i LI) as (t & T & E). destruct LI as (n & Hi).
  pose proof (CP i n (anc_refl _ _) Hi) as CI.
  destruct (n_owner n) as [d|] eqn:O.
  2:{ destruct (wo_noowner _ _ WO _ _ Hi O) as [X _]. rewrite X in CI. unfold clonable in CI. simpl in CI. decompose [or] CI; try discriminate; tauto. }
  assert (DT : doc_there d s).
  { destruct (wo_owner _ _ WO _ _ _ Hi O) as [(nd & A & B)|[X _]]; [exists nd; auto|].
    rewrite (ag_used _ _ _ AG _ _ Hi X) in UU. discriminate. }
  assert (SRC : src (s_heap s) ch d t).
  { apply repr_src; auto. - intros j m J. apply CP. rewrite <- E. eapply repr_anc; eauto. - exists n. rewrite E. auto. }
  destruct (dups_all d doc t (fuel_of s) s ch n ad W DT LD SRC) as (s' & ch' & EX & W' & K & TC & C).
  { rewrite E. auto. } { pose proof (repr_size _ _ _ WL WT t T). unfold fuel_of. lia. } 1: { intros X. rewrite E. apply AD; exact X. }
  exists ch, s', ch', t, d, n. rewrite E in EX. repeat (split; auto).
Qed.

Lemma import_deep : forall k s g i doc, reach k s g -> short k -> usable_by g i -> live (s_heap s) doc -> importable (s_heap s) i ->
  exists j s', import_node doc i true s = Ok (Fresh j) s' /\ cloned s i j s' /\ owner_of (s_heap s') j = owner_of (s_heap s) i /\
    (forall p, owner_of (s_heap s) p <> None -> owner_of (s_heap s') p = owner_of (s_heap s) p).
Proof.
  intros k s g i doc R SH U LD CP.
  destruct (dup_deep k s g i doc false R SH U LD CP ltac:(discriminate)) as (ch & s' & ch' & t & d & n & W & EX & W' & K & Hi & O & T & E & TC & C).
  pose proof W as (WL & WT & WO & WR). pose proof W' as (WL' & WT' & WO' & WR').
  exists (s_nxt s), s'. split. { destruct LD as (nd & LD). unfold import_node, with_fuel. rewrite (bind_ok _ _ _ _ _ _ _ _ (load_ok _ _ _ LD)). exact EX. }
  split; [|split].
  - constructor.
    + eapply wf_linked; eauto.
    + rewrite <- E. eapply cp_copy; eauto.
    + destruct TC as (m & M1 & M2 & M3 & _). exists m. auto.
    + intros x a A. destruct (kp_node _ _ _ _ _ K _ _ A) as (a' & A' & CE & P & OW & _). exists a'.
      destruct CE as (C1&C2&C3&C4&C5&C6&C7&C8&C9). repeat split; auto.
    + intros x l CL. assert (LX : live (s_heap s) x) by (destruct CL as (a & A & _); exists a; auto).
      rewrite (children_det _ _ _ _ CL (ch_children _ _ WT x LX)).
      assert (NE : x <> s_nxt s). { intros ->. destruct LX as (a & A). pose proof (WL _ _ A). lia. }
      rewrite <- (kp_ch _ _ _ _ _ K x LX NE). apply ch_children; auto. destruct LX as (a & A). destruct (kp_node _ _ _ _ _ K _ _ A) as (a' & A' & _). exists a'; auto.
  - destruct TC as (m & M1 & M2 & M3 & M4 & M5 & _). unfold owner_of. rewrite M1, Hi. cbn. congruence.
  - intros p P. unfold owner_of in *. destruct (s_heap s p) as [np|] eqn:HP; [|cbn in P; congruence].
    destruct (kp_node _ _ _ _ _ K _ _ HP) as (p' & P' & _ & _ & OW & _). rewrite P'. cbn in *. destruct OW; congruence.
Qed.

(** The import cannot be used in the document that asked for it. *)
Lemma import_useless : forall k s g i doc, reach k s g -> short k -> usable_by g i -> live (s_heap s) doc -> importable (s_heap s) i ->
  owner_of (s_heap s) i <> Some doc ->
  exists j s', import_node doc i true s = Ok (Fresh j) s' /\ owner_of (s_heap s') j = owner_of (s_heap s) i /\
    forall p r, live (s_heap s') p -> owner_of (s_heap s') p = Some doc -> insert_before p j r s' = Exc WRONG_DOCUMENT_ERR s'.
Proof.
  intros k s g i doc R SH U LD CP NE. destruct (import_deep k s g i doc R SH U LD CP) as (j & s' & E & CL & OW & _).
  exists j, s'. split; auto. split; auto. intros p r (np & P) OP.
  destruct (cd_top _ _ _ _ CL) as (m & M & _).
  destruct (cd_copy _ _ _ _ CL) as [i j n m' l kk Hi Hj NJ TY _ _ _ _ _ _ _]. assert (m' = m) by congruence. subst m'.
  pose proof (CP i n (anc_refl _ _) Hi) as CI.
  unfold owner_of in OW, OP, NE. rewrite M in OW. rewrite Hi in OW, NE. rewrite P in OP. cbn in OW, OP, NE.
  assert (NQ : oid_eqb (n_owner m) (n_owner np) = false) by (apply oid_eqb_neq; congruence).
  assert (ND : ntype_eqb (n_type m) DOCTYPE = false).
  { apply ntype_eqb_neq. rewrite TY. clear - CI. unfold clonable in CI. simpl in CI. decompose [or] CI; try tauto; congruence. }
  unfold insert_before. rewrite (bind_ok _ _ _ _ _ _ _ _ (load_ok _ _ _ P)). rewrite (bind_ok _ _ _ _ _ _ _ _ (load_ok _ _ _ M)).
  rewrite ND, NQ. reflexivity.
Qed.

Lemma keeps_anc : forall x s s' ch ch', wfT (s_heap s) ch -> keeps x s s' ch ch' -> forall a i, anc (s_heap s') a i -> live (s_heap s) i -> anc (s_heap s) a i /\ live (s_heap s) a.
Proof.
  intros x s s' ch ch' WT K a i A. induction A as [|i n p Hi P A IH]; intros (n0 & H0); [split; [constructor|exists n0; auto]|].
  destruct (kp_node _ _ _ _ _ K _ _ H0) as (n' & H' & _ & P' & _). assert (n' = n) by congruence. subst n'. rewrite P in P'. symmetry in P'.
  destruct (wt_parent _ _ WT _ _ _ H0 P') as (np & Hp & _). destruct (IH (ex_intro _ np Hp)) as [I1 I2]. split; auto. econstructor; eauto.
Qed.
Lemma keeps_read_only : forall x s s' ch ch', wfT (s_heap s) ch -> keeps x s s' ch ch' -> forall p, live (s_heap s) p -> read_only (s_heap s') p -> read_only (s_heap s) p.
Proof.
  intros x s s' ch ch' WT K p (n & Hp) (m & M & Q). destruct (kp_node _ _ _ _ _ K _ _ Hp) as (n' & H' & (C1&C2&C3&C4&C5&C6&C7&C8&C9) & _).
  assert (n' = m) by congruence. subst n'. exists n. split; auto. rewrite C1, C8 in Q.
  destruct Q as [Q|[Q|[Q|(Q & a & na & A1 & A2 & A3)]]]; [tauto|tauto|tauto|]. right; right; right. split; auto.
  destruct (keeps_anc _ _ _ _ _ WT K _ _ A1 (ex_intro _ n Hp)) as [B1 (nb & B2)]. exists a, nb. split; auto. split; auto.
  destruct (kp_node _ _ _ _ _ K _ _ B2) as (n2 & H2 & (D1 & _) & _). assert (n2 = na) by congruence. subst n2. rewrite D1 in A3. auto.
Qed.

Lemma parent_of_element_writable : forall s ch p i n, wf s ch -> s_heap s i = Some n -> n_type n = ELEMENT -> n_parent n = Some p -> ~ read_only (s_heap s) i ->
  ~ read_only (s_heap s) p.
Proof.
  intros s ch p i n (WL & WT & WO & WR) Hi TY P NR (np & Hp & Q). destruct (wt_parent _ _ WT _ _ _ Hi P) as (np0 & Hp0 & X & _).
  assert (np0 = np) by congruence. subst np0. destruct (X ltac:(congruence)) as [_ PE]. rewrite TY in PE.
  destruct Q as [Q|[Q|[[Q _]|(_ & a & na & A1 & A2 & A3)]]]; try (rewrite Q in PE; discriminate).
  apply NR. exists n. split; auto. right; right; right. split; [congruence|]. exists a, na. split; auto. econstructor; eauto.
Qed.

Lemma without_id : forall i l, ~ In i l -> without i l = l.
Proof.
  intros i l. induction l as [|x l IH]; intros N; auto. cbn [without filter]. destruct (Nat.eqb_spec x i) as [->|NE]; [exfalso; apply N; left; auto|].
  cbn [negb]. change (x :: without i l = x :: l). rewrite (IH (fun I => N (or_intror I))). reflexivity.
Qed.

Lemma adopt_ok : forall k s g i doc, reach k s g -> short (S k) -> usable_by g i -> live (s_heap s) doc -> importable (s_heap s) i ->
  type_of (s_heap s) i = Some ELEMENT -> ~ read_only (s_heap s) i -> (forall p, parent_of (s_heap s) i = Some p -> type_of (s_heap s) p <> Some DOCUMENT) ->
  exists j s', adopt_node doc i s = Ok (Some (Fresh j)) s' /\ adopted s i j s' /\ owner_of (s_heap s') j = owner_of (s_heap s) i.
Proof.
  intros k s g i doc R SH U LD CP TY NR PD.
  destruct (dup_deep k s g i doc true R (short_pred _ SH) U LD CP (fun _ => NR)) as (ch & s1 & ch1 & t & d & n & W & EX & W1 & K & Hi & O & T & E & TC & C).
  pose proof W as (WL & WT & WO & WR). pose proof W1 as (WL1 & WT1 & WO1 & WR1).
  destruct (reach_good _ _ _ R (short_pred _ SH)) as [_ AG]. destruct (holds_live _ _ _ AG SH _ (proj1 U)) as (n0 & Hi0 & RP & NW).
  assert (n0 = n) by congruence. subst n0. unfold type_of in TY. rewrite Hi in TY. cbn in TY. injection TY as TY.
  destruct (kp_node _ _ _ _ _ K _ _ Hi) as (n1 & Hi1 & CE1 & P1 & O1 & _). pose proof CE1 as (C1&C2&C3&C4&C5&C6&C7&C8&C9).
  set (j := s_nxt s) in *. assert (NJ : s_heap s j = None) by (apply (nxt_fresh _ _ W)).
  assert (EX' : with_fuel (fun f => dup_with f doc true true i) s = Ok (Fresh j) s1) by exact EX.
  assert (OJ : owner_of (s_heap s1) j = owner_of (s_heap s) i).
  { destruct TC as (m & M1 & M2 & M3 & M4 & M5 & _). unfold owner_of. rewrite M1, Hi. cbn. congruence. }
  assert (START : forall m', (n' <- load i ;; match n_parent n' with
      | None => ret (Some (Fresh j))
      | Some p => a <- try (remove_child p i) ;; match a with inr x => node_unref j ;;; raise x | inl t0 => node_unref t0 ;;; ret (Some (Fresh j)) end
      end) s1 = m' -> adopt_node doc i s = m').
  { intros m' <-. destruct LD as (nd & LD). unfold adopt_node. rewrite (bind_ok _ _ _ _ _ _ _ _ (load_ok _ _ _ LD)).
    rewrite (bind_ok _ _ _ _ _ _ _ _ (load_ok _ _ _ Hi)). rewrite TY. rewrite (bind_ok _ _ _ _ _ _ _ _ EX'). reflexivity. }
  destruct (n_parent n) as [p|] eqn:Pn.
  - destruct (wt_parent _ _ WT _ _ _ Hi Pn) as (np & Hp & X & _). destruct (X ltac:(congruence)) as [IN PE].
    assert (LP : live (s_heap s) p) by (exists np; auto).
    destruct (kp_node _ _ _ _ _ K _ _ Hp) as (np1 & Hp1 & (D1 & _) & _).
    destruct (tree_exists _ _ _ WL1 WT1 i) as (t1 & R1 & E1). { exists n1; auto. }
    destruct (remove_child_spec s1 ch1 p i W1 (ex_intro _ np1 Hp1)) with (t := t1) as (o & FF & Q); auto.
    { exists n1. split; auto. congruence. } { exists n1. split; auto. unfold no_wrap in *. rewrite C9. split; auto. lia. }
    assert (o = None).
    { destruct o as [e|]; auto. exfalso. unfold remove_checks in FF.
      inversion FF as [|Q1 e1 r1 Y|Q1 e1 r1 o1 _ F1]; subst.
      { destruct Y as [Y _]. unfold type_of in Y. rewrite Hp1 in Y. cbn in Y. apply (PD p). { unfold parent_of. rewrite Hi. auto. } unfold type_of. rewrite Hp. cbn. congruence. }
      inversion F1 as [|Q2 e2 r2 Y|Q2 e2 r2 o2 _ F2]; subst. { apply Y. unfold parent_of. rewrite Hi1. cbn. congruence. }
      inversion F2 as [|Q3 e3 r3 Y|Q3 e3 r3 o3 _ F3]; subst.
      { apply (parent_of_element_writable s ch p _ n W Hi TY Pn NR). eapply keeps_read_only; eauto. }
      inversion F3. }
    subst o. destruct Q as (h2 & E2 & W2 & ED). set (s2 := withh (addlog s1 (remove_log p i t1)) h2) in *.
    set (ch2 := fun q => without i (ch1 q)) in *. assert (W2' : wf s2 ch2) by exact W2.
    destruct (ed_some _ _ _ _ ED _ _ Hi1) as (n2 & Hi2 & F1 & F2 & F3 & F4 & F5 & F6 & F7 & F8 & F9 & F10 & F11). rewrite Nat.eqb_refl in F9.
    assert (R2 : n_ref n2 = (n_ref n + 1)%N) by congruence.
    destruct (unref_spec s2 ch2 i n2 W2' Hi2) as (h3 & ch3 & E3 & W3 & Z). { lia. } { rewrite R2. exact NW. }
    assert (GT : (1 <? n_ref n2)%N = true) by (apply N.ltb_lt; lia). rewrite GT in Z. cbn [orb] in Z. destruct Z as [-> ->].
    change (s_heap s2) with h2 in *. set (h3 := hmod h2 i ref_down) in *. set (s3 := withh s2 h3) in *.
    assert (PN : n_parent n2 = None).
    { destruct (n_parent n2) as [q|] eqn:PQ; auto. exfalso. destruct W2' as (_ & WT2 & _). destruct (wt_parent _ _ WT2 _ _ _ Hi2 PQ) as (nq & _ & Y & _).
      destruct (Y ltac:(congruence)) as [I _]. unfold ch2, without in I. apply filter_In in I. destruct I as [_ I]. rewrite Nat.eqb_refl in I. discriminate. }
    assert (KEEP : forall x m, s_heap s1 x = Some m -> exists m', h3 x = Some m' /\ field_eq m m' /\ n_attrs m' = n_attrs m /\ n_ref m' = n_ref m /\
      (n_owner m' = n_owner m \/ n_owner m = None)).
    { intros x m M. destruct (ed_some _ _ _ _ ED _ _ M) as (m2 & M2 & G1 & G2 & G3 & G4 & G5 & G6 & G7 & G8 & G9 & G10 & G11).
      exists (if Nat.eqb x i then ref_down m2 else m2). split; [unfold h3; apply hmod_get; auto|].
      destruct (Nat.eqb_spec x i) as [->|NX].
      - assert (m = n1) by congruence. subst m. assert (m2 = n2) by congruence. subst m2.
        split; [repeat split; auto|]. split; auto. split; auto. rewrite ref_down_val; [lia|lia|]. rewrite R2. unfold no_wrap in NW. exact NW.
      - split; [repeat split; auto|]. auto. }
    assert (C3' : cp j (s_heap s) h3 ch2 t j).
    { eapply cp_target; [exact C| |].
      - intros x m M LE. destruct (KEEP x m M) as (m' & M' & F & A & _). exists m'. auto.
      - intros x L LE. unfold ch2. apply without_id. intros I. destruct (wt_child _ _ WT1 _ _ I) as (a & b & A1 & A2 & A3 & A4 & _).
        assert (a = n1) by congruence. subst a. rewrite P1 in A4. injection A4 as <-. pose proof (WL _ _ Hp). unfold j in LE. lia. }
    exists j, s3. split.
    { apply START. rewrite (bind_ok _ _ _ _ _ _ _ _ (load_ok _ _ _ Hi1)). rewrite P1.
      assert (TE : try (remove_child p i) s1 = Ok (inl i) s2). { unfold try. rewrite E2. reflexivity. }
      rewrite (bind_ok _ _ _ _ _ _ _ _ TE). rewrite (bind_ok _ _ _ _ _ _ _ _ E3). reflexivity. }
    pose proof W3 as (WL3 & WT3 & _).
    split. 
    { constructor.
      - eapply wf_linked; eauto.
      - rewrite <- E. eapply cp_copy; eauto.
      - destruct TC as (m & M1 & M2 & M3 & M4 & M5 & M6 & M7). destruct (KEEP _ _ M1) as (m' & M' & F & A & RR & _). exists m'.
        split; [exact M'|]. split; [|congruence].
        destruct (n_parent m') as [q|] eqn:PQ; auto. exfalso. destruct (wt_parent _ _ WT3 _ _ _ M' PQ) as (nq & Q1 & Q2 & Q3).
        assert (TM : n_type m' = ELEMENT). { destruct F as (F1' & _). congruence. }
        destruct (Q2 ltac:(congruence)) as [I _]. unfold ch2, without in I. apply filter_In in I. destruct I as [I _].
        destruct (wt_child _ _ WT1 _ _ I) as (a & b & A1 & A2 & A3 & A4 & _). congruence.
      - unfold parent_of. change (s_heap s3) with h3. unfold h3. rewrite hmod_same, Hi2. exact PN.
      - intros x l CL. assert (LX : live (s_heap s) x) by (destruct CL as (a & A & _); exists a; auto).
        rewrite (children_det _ _ _ _ CL (ch_children _ _ WT x LX)).
        assert (NE : x <> j). { intros ->. destruct LX as (a & A). congruence. }
        rewrite <- (kp_ch _ _ _ _ _ K x LX NE). change (without i (ch1 x)) with (ch2 x). apply ch_children; auto.
        destruct LX as (a & A). destruct (kp_node _ _ _ _ _ K _ _ A) as (a' & A' & _). destruct (KEEP _ _ A') as (a3 & A3 & _). exists a3; auto.
      - intros x a A. destruct (kp_node _ _ _ _ _ K _ _ A) as (a' & A' & (X1&X2&X3&X4&X5&X6&X7&X8&X9) & _).
        destruct (KEEP _ _ A') as (a3 & A3 & (Y1&Y2&Y3&Y4&Y5) & Y6 & Y7 & _). exists a3. split; [exact A3|]. repeat split; congruence. }
    destruct TC as (m & M1 & M2 & M3 & M4 & M5 & _). destruct (KEEP _ _ M1) as (m' & M' & _ & _ & _ & OO).
    unfold owner_of. change (s_heap s3) with h3. rewrite M', Hi. cbn. destruct OO; congruence.
  - exists j, s1. split. { apply START. rewrite (bind_ok _ _ _ _ _ _ _ _ (load_ok _ _ _ Hi1)). rewrite P1. reflexivity. }
    split; auto. constructor.
    + eapply wf_linked; eauto.
    + rewrite <- E. eapply cp_copy; eauto.
    + destruct TC as (m & M1 & M2 & M3 & _). exists m. auto.
    + unfold parent_of. rewrite Hi1. cbn. congruence.
    + intros x l CL. assert (LX : live (s_heap s) x) by (destruct CL as (a & A & _); exists a; auto).
      assert (NE : x <> j). { intros ->. destruct LX as (a & A). congruence. }
      assert (EQ := children_det _ _ _ _ CL (ch_children _ _ WT x LX)).
      rewrite without_id. 2:{ intros I. rewrite EQ in I. destruct (wt_child _ _ WT _ _ I) as (a & b & A1 & A2 & A3 & A4 & _). congruence. }
      rewrite EQ. rewrite <- (kp_ch _ _ _ _ _ K x LX NE). apply ch_children; auto. destruct LX as (a & A). destruct (kp_node _ _ _ _ _ K _ _ A) as (a' & A' & _). exists a'; auto.
    + intros x a A. destruct (kp_node _ _ _ _ _ K _ _ A) as (a' & A' & (X1&X2&X3&X4&X5&X6&X7&X8&X9) & _). exists a'. split; auto. repeat split; auto.
Qed.

Lemma adopt_nothing : forall s i doc n nd, s_heap s doc = Some nd -> s_heap s i = Some n -> In (n_type n) [TEXT; CDATA; COMMENT; PI; ENTITY; NOTATION] ->
  adopt_node doc i s = Ok None s.
Proof.
  intros s i doc n nd D H I. unfold adopt_node. rewrite (bind_ok _ _ _ _ _ _ _ _ (load_ok _ _ _ D)). rewrite (bind_ok _ _ _ _ _ _ _ _ (load_ok _ _ _ H)).
  cbn [In] in I. decompose [or] I; try tauto; match goal with X : _ = n_type n |- _ => rewrite <- X end; reflexivity.
Qed.

Lemma import_refuses : forall s i doc n nd deep, s_heap s doc = Some nd -> s_heap s i = Some n -> n_type n = DOCUMENT \/ n_type n = DOCTYPE ->
  import_node doc i deep s = Exc NOT_SUPPORTED_ERR s /\ adopt_node doc i s = Exc NOT_SUPPORTED_ERR s.
Proof.
  intros s i doc n nd deep D H T. split.
  - unfold import_node, with_fuel. rewrite (bind_ok _ _ _ _ _ _ _ _ (load_ok _ _ _ D)).
    assert (F : exists f, fuel_of s = S f) by (unfold fuel_of; exists (2 * s_nxt s + 7); lia). destruct F as [f ->].
    cbn [dup_with]. rewrite (bind_ok _ _ _ _ _ _ _ _ (load_ok _ _ _ H)). rewrite bind_ret. destruct T as [-> | ->]; reflexivity.
  - unfold adopt_node. rewrite (bind_ok _ _ _ _ _ _ _ _ (load_ok _ _ _ D)). rewrite (bind_ok _ _ _ _ _ _ _ _ (load_ok _ _ _ H)).
    destruct T as [-> | ->]; reflexivity.
Qed.

(** A shallow import is a shallow clone. *)
Lemma import_clone : forall s i doc n nd d, s_heap s doc = Some nd -> s_heap s i = Some n -> n_owner n = Some d -> clonable (n_type n) -> n_type n <> ATTRIBUTE ->
  import_node doc i false s = clone_node i false s.
Proof.
  intros s i doc n nd d D H O CP NA. unfold import_node, clone_node, with_fuel. rewrite (bind_ok _ _ _ _ _ _ _ _ (load_ok _ _ _ D)).
  assert (F : exists f, fuel_of s = S f) by (unfold fuel_of; exists (2 * s_nxt s + 7); lia). destruct F as [f ->].
  cbn [dup_with clone_with]. rewrite !(bind_ok _ _ _ _ _ _ _ _ (load_ok _ _ _ H)). rewrite O.
  unfold clonable in CP. cbn [In] in CP. decompose [or] CP; try tauto; match goal with X : _ = n_type n |- _ => rewrite <- X in * end; try congruence; reflexivity.
Qed.
Lemma import_shallow : forall k s g i n doc, reach k s g -> short k -> usable_by g i -> live (s_heap s) doc -> s_heap s i = Some n -> n_type n <> ATTRIBUTE -> clonable (n_type n) ->
  (forall a j m, In a (n_attrs n) -> anc (s_heap s) a j -> s_heap s j = Some m -> clonable (n_type m)) ->
  exists j s' m, import_node doc i false s = Ok (Fresh j) s' /\ linked s' /\ s_heap s j = None /\ s_heap s' j = Some m /\
    same_fields n m /\ n_parent m = None /\ n_ref m = 1%N /\ children (s_heap s') j [] /\
    Forall2 (copy_of (s_heap s) (s_heap s')) (n_attrs n) (n_attrs m) /\ (forall a, In a (n_attrs m) -> parent_of (s_heap s') a = Some j) /\
    (forall x l, children (s_heap s) x l -> children (s_heap s') x l).
Proof.
  intros k s g i n doc R SH U (nd & LD) Hi NA CP AT. destruct (reach_good _ _ _ R SH) as [[ch W] AG]. pose proof W as (WL & WT & WO & WR).
  destruct (n_owner n) as [d|] eqn:O.
  2:{ destruct (wo_noowner _ _ WO _ _ Hi O) as [X _]. rewrite X in CP. unfold clonable in CP. simpl in CP. decompose [or] CP; try discriminate; tauto. }
  rewrite (import_clone s i doc n nd d LD Hi O CP NA). apply (clone_shallow k s g); auto.
Qed.
