(** cloneNode on the states clients reach. *)
From Coq Require Import List Arith NArith Bool Lia ZifyBool ZifyNat ZifyN.
From Verif Require Import Base HeapModel HeapSpec HeapInv HeapExec HeapTree HeapLoops HeapFrame HeapOps HeapCreate
  HistModel HistProofs TreeSpec TreeProofs WalkModel WalkSpec WalkProofs WalkReach ContentModel ContentSpec HeapContent HeapClone ContentProofs.
Import ListNotations.
Local Open Scope dom_scope.

Lemma repr_src : forall s ch d, wf s ch -> forall t, repr (s_heap s) t ->
  (forall j n, In j (nodes t) -> s_heap s j = Some n -> clonable (n_type n)) ->
  (exists n, s_heap s (root t) = Some n /\ n_owner n = Some d) -> src (s_heap s) ch d t.
Proof.
  intros s ch d (WL & WT & WO & WR) t. induction t as [i ats ks IHA IH] using rose_ind2. intros R CP (n & H & O). cbn [root] in H.
  pose proof (repr_children _ _ R) as C. destruct (repr_inv _ _ _ _ R) as (n0 & A & B1 & B2 & B3 & SG & ND & AT & RA & RK). assert (n0 = n) by congruence; subst n0. cbn [root kids] in C.
  assert (UP : forall k m, s_heap s (root k) = Some m -> n_parent m = Some i -> exists m, s_heap s (root k) = Some m /\ n_owner m = Some d).
  { intros k m K1 K2. exists m. split; auto. rewrite (wo_child _ _ WO _ _ _ _ K1 K2 H). auto. }
  apply (src_T _ _ _ i ats ks n); auto.
  - apply (CP i n); auto. left; auto.
  - eapply children_det; [apply ch_children; eauto; exists n; auto|exact C].
  - rewrite Forall_forall in *. intros k I. apply IHA; auto.
    + intros j m J. apply CP. right. apply in_or_app. left. apply in_flat_map. eauto.
    + destruct (wt_attrs _ _ WT _ _ H) as (_ & _ & X). destruct (X (root k)) as (m & K1 & _ & K2). { rewrite B3. apply in_map; auto. } eauto.
  - rewrite Forall_forall in *. intros k I. apply IH; auto.
    + intros j m J. apply CP. right. apply in_or_app. right. apply in_flat_map. eauto.
    + assert (CE : ch i = map root ks) by (eapply children_det; [apply ch_children; eauto; exists n; auto|exact C]).
      destruct (wt_child _ _ WT i (root k)) as (m & b & K1 & _ & _ & K2 & _). { rewrite CE. apply in_map; auto. } eauto.
Qed.

Lemma cp_copy : forall s s' ch ch', wfT (s_heap s) ch -> wfL (s_heap s) (s_nxt s) -> wfT (s_heap s') ch' -> forall t j,
  repr (s_heap s) t -> cp (s_nxt s) (s_heap s) (s_heap s') ch' t j -> copy_of (s_heap s) (s_heap s') (root t) j.
Proof.
  intros s s' ch ch' WT WL WT' t j R C. induction C as [i ats ks j n m A B D E F FI G IH] using cp_ind2.
  pose proof (repr_children _ _ R) as CH. destruct (repr_inv _ _ _ _ R) as (n0 & A0 & _ & _ & B3 & _ & _ & _ & RA & RK). assert (n0 = n) by congruence; subst n0.
  destruct E as (E1&E2&E3&E4&E5). cbn [root kids] in *. apply (copy_node _ _ i j n m (map root ks) (ch' j)); auto.
  - destruct (s_heap s j) as [x|] eqn:X; auto. pose proof (WL _ _ X). lia.
  - rewrite B3. clear - FI RA. induction FI; simpl; constructor; inversion RA; subst; auto.
  - intros a I. destruct (wt_attrs _ _ WT' _ _ B) as (_ & _ & X). destruct (X _ I) as (na & N1 & _ & N2). unfold parent_of. rewrite N1. auto.
  - apply ch_children; auto. exists m; auto.
  - clear - IH RK. induction IH; simpl; constructor; inversion RK; subst; auto.
Qed.

Lemma clone_deep : forall k s g i, reach k s g -> short k -> usable_by g i ->
  (forall j n, anc (s_heap s) i j -> s_heap s j = Some n -> clonable (n_type n)) ->
  exists j s', clone_node i true s = Ok (Fresh j) s' /\ cloned s i j s'.
Proof.
  intros k s g i R SH [UH UU] CP. destruct (reach_good _ _ _ R SH) as [[ch W] AG]. pose proof W as (WL & WT & WO & WR).
  assert (LI : live (s_heap s) i).
  { destruct (s_heap s i) as [n|] eqn:E; [exists n; auto|]. unfold holds in UH. rewrite (ag_dead _ _ _ AG _ E) in UH. lia. }
  destruct (tree_exists _ _ _ WL WT i LI) as (t & T & E). destruct LI as (n & Hi).
  pose proof (CP i n (anc_refl _ _) Hi) as CI.
  destruct (n_owner n) as [d|] eqn:O.
  2:{ destruct (wo_noowner _ _ WO _ _ Hi O) as [X _]. rewrite X in CI. unfold clonable in CI. simpl in CI. decompose [or] CI; try discriminate; tauto. }
  assert (DT : doc_there d s).
  { destruct (wo_owner _ _ WO _ _ _ Hi O) as [(nd & A & B)|[X _]]; [exists nd; auto|].
    rewrite (ag_used _ _ _ AG _ _ Hi X) in UU. discriminate. }
  assert (SRC : src (s_heap s) ch d t).
  { apply repr_src; auto. - intros j m J. apply CP. rewrite <- E. eapply repr_anc; eauto. - exists n. rewrite E. auto. }
  destruct (clones_all d t (fuel_of s) s ch n W DT SRC) as (s' & ch' & EX & W' & K & TC & C).
  { rewrite E. auto. } { pose proof (repr_size _ _ _ WL WT t T). unfold fuel_of. lia. }
  exists (s_nxt s), s'. split. { rewrite <- E. exact EX. }
  pose proof W' as (WL' & WT' & WO' & WR').
  constructor.
  - eapply wf_linked; eauto.
  - rewrite <- E. eapply cp_copy; eauto.
  - destruct TC as (m & M1 & M2 & M3 & _). exists m. auto.
  - intros x a A. destruct (kp_node _ _ _ _ _ K _ _ A) as (a' & A' & CE & P & OW & _). exists a'.
    destruct CE as (C1&C2&C3&C4&C5&C6&C7&C8&C9). repeat split; auto.
  - intros x l CL. assert (LX : live (s_heap s) x) by (destruct CL as (a & A & _); exists a; auto).
    rewrite (children_det _ _ _ _ CL (ch_children _ _ WT x LX)).
    assert (NE : x <> s_nxt s). { intros ->. destruct LX as (a & A). pose proof (WL _ _ A). lia. }
    rewrite <- (kp_ch _ _ _ _ _ K x LX NE). apply ch_children; auto. destruct LX as (a & A). destruct (kp_node _ _ _ _ _ K _ _ A) as (a' & A' & _). exists a'; auto.
Qed.

Lemma clone_shallow : forall k s g i n, reach k s g -> short k -> usable_by g i -> s_heap s i = Some n -> n_type n <> ATTRIBUTE ->
  clonable (n_type n) -> (forall a j m, In a (n_attrs n) -> anc (s_heap s) a j -> s_heap s j = Some m -> clonable (n_type m)) ->
  exists j s' m, clone_node i false s = Ok (Fresh j) s' /\ linked s' /\ s_heap s j = None /\ s_heap s' j = Some m /\
    same_fields n m /\ n_parent m = None /\ n_ref m = 1%N /\ children (s_heap s') j [] /\
    Forall2 (copy_of (s_heap s) (s_heap s')) (n_attrs n) (n_attrs m) /\ (forall a, In a (n_attrs m) -> parent_of (s_heap s') a = Some j) /\
    (forall x l, children (s_heap s) x l -> children (s_heap s') x l).
Proof.
  intros k s g i n R SH [UH UU] Hi NA CP AT. destruct (reach_good _ _ _ R SH) as [[ch W] AG]. pose proof W as (WL & WT & WO & WR).
  destruct (n_owner n) as [d|] eqn:O.
  2:{ destruct (wo_noowner _ _ WO _ _ Hi O) as [X _]. rewrite X in CP. unfold clonable in CP. simpl in CP. decompose [or] CP; try discriminate; tauto. }
  destruct (wo_owner _ _ WO _ _ _ Hi O) as [(nd & A & B)|[X _]].
  2:{ rewrite (ag_used _ _ _ AG _ _ Hi X) in UU. discriminate. }
  destruct (tree_exists _ _ _ WL WT i) as ([i0 ats ks] & T & E). { exists n; auto. } cbn [root] in E. subst i0.
  destruct (repr_inv _ _ _ _ T) as (n0 & A0 & B1 & B2 & B3 & SG & ND & ATT & RA & RK). assert (n0 = n) by congruence; subst n0.
  assert (SA : Forall (src (s_heap s) ch d) ats).
  { rewrite Forall_forall in *. intros t I. assert (IA : In (root t) (n_attrs n)) by (rewrite B3; apply in_map; auto). apply repr_src; auto.
    - intros j m J. apply (AT (root t)); auto. eapply repr_anc; eauto.
    - destruct (wt_attrs _ _ WT _ _ Hi) as (_ & _ & X). destruct (X _ IA) as (m & K1 & _ & K2). exists m. split; auto. rewrite (wo_child _ _ WO _ _ _ _ K1 K2 Hi). auto. }
  assert (F : exists f, fuel_of s = S f /\ length (flat_map nodes ats) <= f).
  { exists (2 * s_nxt s + 7). split; [unfold fuel_of; lia|]. pose proof (repr_size _ _ _ WL WT _ T) as Z. cbn [nodes length] in Z. rewrite app_length in Z. lia. }
  destruct F as (f & FE & FL).
  destruct (copy_head d f i ats s ch n) as (s1 & s2 & ch2 & m & E1 & E2 & W2 & K2 & T2 & CJ & M1 & M2 & MA); auto.
  { rewrite Forall_forall. intros x _. apply clones_all. } { exists nd; auto. }
  pose proof W2 as (WL2 & WT2 & _).
  exists (s_nxt s), s2, m. split.
  { unfold clone_node, with_fuel. rewrite FE.
    cbn [clone_with]. rewrite (bind_ok _ _ _ _ _ _ _ _ (load_ok _ _ _ Hi)). rewrite O, bind_ret. rewrite (bind_ok _ _ _ _ _ _ _ _ E1).
    rewrite (bind_ok _ _ _ _ _ _ _ _ E2). apply ntype_eqb_neq in NA. rewrite NA. cbn [orb]. rewrite bind_ret. reflexivity. }
  split; [eapply wf_linked; eauto|]. split; [eapply nxt_fresh; eauto|]. split; auto.
  split. { destruct M2 as (X1&X2&X3&X4&X5). repeat split; congruence. }
  destruct T2 as (m' & Y1 & Y2 & Y3 & _). assert (m' = m) by congruence; subst m'. split; auto. split; auto.
  split. { rewrite <- CJ. apply ch_children; auto. exists m; auto. }
  split. { rewrite B3. clear - MA RA WT WL WT2. revert RA. induction MA as [|t b ts bs C F IH]; intros RA; simpl; constructor; inversion RA; subst; auto.
    eapply cp_copy; eauto. apply cp_source with (nx := S (s_nxt s)) (h := s_heap s); [exact C|lia|]. intros z a Y I. exists a. split; [exact Y|repeat split]. }
  split. { intros a I. destruct (wt_attrs _ _ WT2 _ _ M1) as (_ & _ & X). destruct (X _ I) as (na & N1 & _ & N2). unfold parent_of. rewrite N1. auto. }
  intros x l CL. assert (LX : live (s_heap s) x) by (destruct CL as (a & Z & _); exists a; auto).
  assert (NE : x <> s_nxt s). { intros ->. destruct LX as (a & Z). pose proof (WL _ _ Z). lia. }
  rewrite (children_det _ _ _ _ CL (ch_children _ _ WT x LX)). rewrite <- (kp_ch _ _ _ _ _ K2 x LX NE). apply ch_children; auto.
  destruct LX as (a & Z). destruct (kp_node _ _ _ _ _ K2 _ _ Z) as (a' & A' & _). exists a'; auto.
Qed.
