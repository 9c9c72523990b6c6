(** Every call of a correct client keeps the count of references. *)
From Coq Require Import List NArith Bool Arith Lia ZifyBool ZifyNat ZifyN Permutation.
From Verif Require Import Base StringModel StrRefModel StrRefSpec StrRefProofs.
Import ListNotations.
Local Open Scope dom_scope.

Definition good_step (s : cst) (own lost : list nat) (B : nat) (o : sop) : Prop :=
  (exists u s', sexec o s = Ok u s' /\ inv s' (own_after own o u) (loses s o ++ lost) (B + 8) /\ keep s s') \/
  (exists x s', sexec o s = Exc x s' /\ inv s' own lost (B + 8) /\ keep s s').

Lemma take_perm i l : In i l -> Permutation l (i :: take i l).
Proof.
  induction l as [|j l IH]; cbn [take In]; [tauto|]. intros [Q|Q].
  - subst j. rewrite Nat.eqb_refl. reflexivity.
  - destruct (Nat.eqb_spec j i) as [->|N]; [reflexivity|]. rewrite perm_swap. apply perm_skip. auto.
Qed.

Ltac mem := intros; subst; repeat (progress (cbn [olist app In ctl_strs]) || rewrite in_app_iff); tauto.

Section Steps.
Variables (s : cst) (own lost : list nat) (B : nat).
Hypothesis (I : inv s own lost B) (W : (N.of_nat B + 16 < two32)%N).
Lemma Wk k : (k <= 12)%nat -> (N.of_nat (k + B) + 1 < two32)%N.
Proof. revert W. unfold two32. lia. Qed.

Lemma inv_evo s' own' lost' L B' : evo s s' -> holds s' L B' -> Permutation L (own' ++ lost' ++ kept s) ->
  B' <= B + 8 -> inv s' own' lost' (B + 8).
Proof.
  intros V H P Q. split; [|exact (evo_tidy _ _ V (proj2 I))].
  rewrite (evo_kept _ _ V). apply (holds_more _ _ B'); [|exact Q]. exact (holds_perm _ _ _ _ P H).
Qed.

Lemma step_new b : good_step s own lost B (SNew b).
Proof.
  left. destruct I as [H _]. destruct (new_holds _ _ _ b H) as (s1 & E1 & H1 & V1 & _).
  cbn [sexec]. st E1. eexists _, _. split; [reflexivity|]. split; [|apply V1].
  apply (inv_evo _ _ _ _ _ V1 H1); [cbn [own_after loses app]; perm|lia].
Qed.
Lemma step_ref i : In i own -> good_step s own lost B (SRef i).
Proof.
  intro O. left. destruct I as [H _]. destruct (ref_holds _ _ _ i H ltac:(mem) (Wk 0 ltac:(lia))) as (s1 & E1 & H1 & V1).
  cbn [sexec]. st E1. eexists _, _. split; [reflexivity|]. split; [|apply V1].
  apply (inv_evo _ _ _ _ _ V1 H1); [cbn [own_after loses app]; perm|lia].
Qed.
Lemma step_release i : In i own -> good_step s own lost B (SRelease i).
Proof.
  intro O. left. destruct I as [H _]. apply take_perm in O.
  assert (H0 : holds s (i :: take i own ++ lost ++ kept s) B).
  { refine (holds_perm _ _ _ _ _ H). rewrite O at 1. reflexivity. }
  destruct (unref_holds _ _ _ i H0 (Wk 0 ltac:(lia))) as (s1 & E1 & H1 & V1).
  cbn [sexec]. unfold done. st E1. eexists _, _. split; [reflexivity|]. split; [|apply V1].
  apply (inv_evo _ _ _ _ _ V1 H1); [cbn [own_after loses app]; perm|lia].
Qed.

(** The creation of an element; [L] is what is held besides the new name. *)
Lemma alloc_ok s0 L B0 name ns prefix : evo s s0 -> holds s0 L B0 -> B0 <= 4 + B -> In name L ->
  (forall i, ns = Some i -> In i L) -> (forall i, prefix = Some i -> In i L) ->
  exists e s1 d x, alloc_el name ns prefix s0 = Ok e s1 /\ holds s1 (name :: olist ns ++ olist prefix ++ L) (3 + B0) /\
    keep s0 s1 /\ c_els s1 = c_els s ++ [Some x] /\ c_title s1 = c_title s /\
    x = mkElem name ns prefix (ctl_of d) /\ e = length (c_els s).
Proof.
  intros V H Q N1 N2 N3. assert (W' := W). unfold two32 in W'. unfold alloc_el.
  destruct (data_holds _ _ _ _ H N1) as (d & E0 & _). st E0.
  destruct (ref_holds _ _ _ _ H N1 ltac:(unfold two32; lia)) as (s1 & E1 & H1 & V1). st E1.
  destruct (oref_holds _ _ _ ns H1 ltac:(intros i Z; right; auto) ltac:(unfold two32; lia)) as (s2 & E2 & H2 & V2). st E2.
  destruct (oref_holds _ _ _ prefix H2 ltac:(intros i Z; apply in_or_app; right; right; auto) ltac:(unfold two32; lia))
    as (s3 & E3 & H3 & V3). st E3.
  assert (VV := evo_trans _ _ _ V (evo_trans _ _ _ V1 (evo_trans _ _ _ V2 V3))).
  eexists _, _, d, _. split; [reflexivity|]. split; [|split; [|split; [|split; [|split]]]].
  - apply (holds_same s3); [reflexivity|reflexivity|]. refine (holds_perm _ _ _ _ _ H3). perm.
  - apply (evo_trans _ _ _ V1 (evo_trans _ _ _ V2 V3)).
  - cbn [set_els c_els]. destruct VV as (_ & -> & _). reflexivity.
  - destruct VV as (_ & _ & R). exact R.
  - reflexivity.
  - destruct VV as (_ & -> & _). reflexivity.
Qed.

(** create_element_internal outside SVG: a new element, or the empty name is refused. *)
Lemma create_ok s0 L B0 tag ns prefix : evo s s0 -> holds s0 L B0 -> B0 <= 2 + B -> In tag L ->
  (forall i, ns = Some i -> In i L) -> (forall i, prefix = Some i -> In i L) ->
  (forall i, ns = Some i -> text s0 i <> Some svg_ns) ->
  (create_internal tag ns prefix s0 = Exc INVALID_CHARACTER_ERR s0 /\ text s0 tag = Some []) \/
  (exists d n e s1 c, create_internal tag ns prefix s0 = Ok e s1 /\ text s0 tag = Some d /\ d <> [] /\
    holds s1 (n :: olist ns ++ olist prefix ++ L) (4 + B0) /\
    keep s0 s1 /\ c_els s1 = c_els s ++ [Some (mkElem n ns prefix (ctl_of c))] /\ c_title s1 = c_title s /\ e = length (c_els s)).
Proof.
  intros V H Q N1 N2 N3 NS. unfold create_internal.
  destruct (data_holds _ _ _ _ H N1) as (d & E0 & T0). st E0. destruct d as [|c0 d]; [left; auto|right].
  assert (exists b, o_data ns s0 = Ok b s0 /\ bytes_eqb b svg_ns = false) as (b & Eb & Nb).
  { destruct ns as [i|].
    - destruct (data_holds _ _ _ _ H (N2 i eq_refl)) as (b & Eb & Tb). exists b. split; [exact Eb|].
      destruct (bytes_eqb b svg_ns) eqn:Z; [|reflexivity]. exfalso. apply (NS i eq_refl). rewrite Tb. f_equal.
      assert (BE : forall u v, bytes_eqb u v = true -> u = v).
      { clear. induction u as [|a u IH]; destruct v as [|b v]; cbn [bytes_eqb]; try discriminate; [reflexivity|].
        intro Z. apply andb_prop in Z as [Z1 Z2]. apply N.eqb_eq in Z1. f_equal; auto. }
      apply BE. exact Z.
    - exists []. split; reflexivity. }
  st Eb. rewrite Nb. destruct (new_holds _ _ _ (upper (c0 :: d)) H) as (s1 & E1 & H1 & V1 & T1). st E1.
  destruct (alloc_ok s1 _ _ (c_nxt s0) ns prefix (evo_trans _ _ _ V V1) H1 ltac:(lia) ltac:(left; reflexivity)
              ltac:(intros i Z; right; auto) ltac:(intros i Z; right; auto))
    as (e & s2 & c & x & E2 & H2 & K2 & L2 & T2 & X2 & X3). st E2.
  assert (H3 : holds s2 (c_nxt s0 :: c_nxt s0 :: olist ns ++ olist prefix ++ L) (4 + B0)).
  { apply (holds_more _ _ (3 + S B0)); [|lia]. refine (holds_perm _ _ _ _ _ H2). perm. }
  destruct (unref_holds _ _ _ _ H3) as (s3 & E3 & H4 & V3); [assert (W' := W); unfold two32 in *; lia|]. st E3.
  exists (c0 :: d), (c_nxt s0), e, s3, c. split; [reflexivity|]. split; [exact T0|]. split; [discriminate|]. split; [exact H4|].
  split; [|split; [|split]].
  - apply (keep_trans _ s1); [apply V1|]. apply (keep_trans _ s2); [exact K2|apply V3].
  - destruct V3 as (_ & -> & _). subst x. exact L2.
  - destruct V3 as (_ & _ & ->). exact T2.
  - exact X3.
Qed.

Lemma inv_add' s1 x L B' : c_els s1 = c_els s ++ [Some x] -> c_title s1 = c_title s -> tidy_ctl (e_ctl x) -> holds s1 L B' ->
  Permutation L (own ++ lost ++ el_strs (Some x) ++ kept s) -> B' <= B + 8 ->
  inv s1 own lost (B + 8).
Proof.
  intros E T C H P Q. 
  set (s0 := mkCst (c_str s1) (c_nxt s1) (c_els s) (c_title s)).
  assert (J : inv (set_els s0 (c_els s0 ++ [Some x])) own lost B').
  { apply (inv_add s0 x own lost L B'); [intros a y A; exact (proj2 I a y A)|exact C| |exact P].
    apply (holds_same s1); [reflexivity|reflexivity|exact H]. }
  assert (Z : set_els s0 (c_els s0 ++ [Some x]) = s1).
  { subst s0. unfold set_els. cbn [c_str c_nxt c_els c_title]. rewrite <- E, <- T. destruct s1; reflexivity. }
  rewrite Z in J. destruct J as [J1 J2]. split; [|exact J2]. eapply holds_more; eauto.
Qed.
Lemma tidy_of b : tidy_ctl (ctl_of b).
Proof. unfold ctl_of. destruct (bytes_eqb b n_input); [split; auto|]. destruct (bytes_eqb b n_textarea); cbn; auto. Qed.

Lemma step_element t : In t own -> good_step s own lost B (SElement t).
Proof.
  intro O. destruct I as [H _]. cbn [good_step sexec own_after loses]. unfold good_step. cbn [sexec]. unfold create_element.
  destruct (create_ok s _ _ t None None (evo_refl s) H ltac:(lia) ltac:(mem) ltac:(discriminate) ltac:(discriminate) ltac:(discriminate))
    as [[E _]|(d & n & e & s1 & c & E & _ & _ & H1 & K1 & L1 & T1 & _)].
  - right. eexists _, s. rewrite (bind_exc _ _ _ _ _ E). split; [reflexivity|]. split; [|apply keep_refl].
    destruct I as [X Y]. split; [|exact Y]. eapply holds_more; eauto. lia.
  - left. st E. eexists _, _. split; [reflexivity|]. split; [|exact K1]. cbn [own_after loses app].
    apply (inv_add' s1 _ _ _ L1 T1 (tidy_of c) H1); [cbn [el_strs e_name e_ns e_prefix e_ctl olist app]|lia].
    assert (Z : ctl_strs (ctl_of c) = []).
    { unfold ctl_of. destruct (bytes_eqb c n_input); [reflexivity|]. destruct (bytes_eqb c n_textarea); reflexivity. }
    rewrite Z. perm.
Qed.
Lemma no_strs c : ctl_strs (ctl_of c) = [].
Proof. unfold ctl_of. destruct (bytes_eqb c n_input); [reflexivity|]. destruct (bytes_eqb c n_textarea); reflexivity. Qed.

Lemma step_element_ns ns q : opt_in own ns -> In q own -> calm s (SElementNS ns q) -> good_step s own lost B (SElementNS ns q).
Proof.
  intros ON OQ CA. assert (W' := W). unfold two32 in W'. destruct I as [H TD].
  assert (NO : forall i, ns = Some i -> In i (own ++ lost ++ kept s)) by (intros i ->; cbn [opt_in] in ON; mem).
  assert (CA' : forall s1, keep s s1 -> (forall i, ns = Some i -> exists b c, c_str s1 i = Some (b, c)) ->
                forall i, ns = Some i -> text s1 i <> Some svg_ns).
  { intros s1 [_ K] AL i ->. destruct (AL i eq_refl) as (b & c & E). cbn [calm] in CA.
    rewrite (K i); [exact CA| |congruence]. exact (held_old _ _ _ _ H (NO i eq_refl)). }
  unfold good_step. cbn [sexec]. unfold create_element_ns, split.
  destruct (data_holds _ _ _ q H ltac:(mem)) as (d & E0 & T0).
  assert (X : exists pf l s1 L, (d0 <- s_data q ;;
     match cut d0 with
     | None => s_ref q ;;; ret (None, q)
     | Some (p, l) => p' <- s_new p ;; l' <- s_new l ;; ret (Some p', l')
     end) s = Ok (pf, l) s1 /\ holds s1 L (2 + B) /\ evo s s1 /\ Permutation L (l :: olist pf ++ own ++ lost ++ kept s)).
  { st E0. destruct (cut d) as [[p l]|].
    - destruct (new_holds _ _ _ p H) as (s1 & E1 & H1 & V1 & _). st E1.
      destruct (new_holds _ _ _ l H1) as (s2 & E2 & H2 & V2 & _). st E2.
      eexists _, _, _, _. split; [reflexivity|]. split; [exact H2|]. split; [eapply evo_trans; eauto|]. cbn [olist]. perm.
    - destruct (ref_holds _ _ _ q H ltac:(mem) ltac:(unfold two32; lia)) as (s1 & E1 & H1 & V1). st E1.
      eexists _, _, _, _. split; [reflexivity|]. split; [eapply holds_more; [exact H1|lia]|]. split; [exact V1|]. cbn [olist]. perm. }
  destruct X as (pf & l & s1 & L & E1 & H1 & V1 & P1).
  assert (IL : forall i, In i (l :: olist pf ++ own ++ lost ++ kept s) -> In i L).
  { intros i Z. eapply Permutation_in; [symmetry; exact P1|exact Z]. }
  assert (AL : forall i, ns = Some i -> In i L) by (intros i Z; apply IL; apply NO in Z; right; apply in_or_app; auto).
  destruct (create_ok s1 L _ l ns pf V1 H1 ltac:(lia) (IL l ltac:(left; reflexivity)) AL
             ltac:(intros i ->; apply IL; cbn [olist app In]; tauto)
             (CA' s1 (proj1 V1) (fun i Z => held_alive _ _ _ _ H1 (AL i Z))))
    as [[E2 _]|(d2 & n & e & s2 & c & E2 & _ & _ & H2 & K2 & L2 & T2 & X2)].
  - right. apply (holds_perm _ _ _ _ P1) in H1.
    destruct (unref_holds _ _ _ _ H1 ltac:(unfold two32; lia)) as (s3 & E3 & H3 & V3).
    destruct (ounref_holds _ _ (own ++ lost ++ kept s) _ pf H3 ltac:(reflexivity) ltac:(unfold two32; lia)) as (s4 & E4 & H4 & V4).
    exists INVALID_CHARACTER_ERR, s4. split; [|split].
    + unfold bind at 1. unfold bind at 1. rewrite E1. cbn [fst snd]. unfold bind at 1, try. rewrite E2.
      st E3. st E4. reflexivity.
    + apply (inv_evo s4 own lost _ (2 + B) (evo_trans _ _ _ V1 (evo_trans _ _ _ V3 V4)) H4); [reflexivity|lia].
    + apply (evo_trans _ _ _ V1 (evo_trans _ _ _ V3 V4)).
  - left.
    assert (H2' : holds s2 (l :: olist pf ++ (n :: olist ns ++ olist pf ++ own ++ lost ++ kept s)) (6 + B)).
    { apply (holds_more _ _ (4 + (2 + B))); [|lia]. refine (holds_perm _ _ _ _ _ H2). rewrite P1. perm. }
    destruct (unref_holds _ _ _ _ H2' ltac:(unfold two32; lia)) as (s3 & E3 & H3 & V3).
    destruct (ounref_holds _ _ (n :: olist ns ++ olist pf ++ own ++ lost ++ kept s) _ pf H3 ltac:(reflexivity) ltac:(unfold two32; lia)) as (s4 & E4 & H4 & V4).
    eexists _, s4. split; [|split].
    + unfold bind at 1. unfold bind at 1. rewrite E1. cbn [fst snd]. unfold bind at 1, try. rewrite E2.
      st E3. st E4. reflexivity.
    + cbn [own_after loses app]. assert (VV := evo_trans _ _ _ V3 V4).
      apply (inv_add' s4 (mkElem n ns pf (ctl_of c)) (n :: olist ns ++ olist pf ++ own ++ lost ++ kept s) (6 + B)); [destruct VV as (_ & -> & _); exact L2|destruct VV as (_ & _ & ->); exact T2|apply tidy_of|exact H4| |lia].
      cbn [el_strs e_name e_ns e_prefix e_ctl]. rewrite no_strs. perm.
    + apply (keep_trans _ s1); [apply V1|]. apply (keep_trans _ s2); [exact K2|]. apply (evo_trans _ _ _ V3 V4).
Qed.

(** A string of an element, for reading or keeping. *)
Lemma at_perm e x : el_at s e = Some x -> holds s (own ++ lost ++ el_strs (Some x) ++ others s e) B.
Proof.
  intro E. refine (holds_perm _ _ _ _ _ (proj1 I)). rewrite (kept_at _ _ _ E). reflexivity.
Qed.

Lemma step_destroy e : there s e -> good_step s own lost B (SDestroy e).
Proof.
  intros [x E]. left. assert (W' := W). unfold two32 in W'. assert (H := at_perm _ _ E). assert (TD := proj2 I).
  cbn [sexec]. unfold done, destroy_el.
  assert (F : exists s1, free_ctl (e_ctl x) s = Ok tt s1 /\ evo s s1 /\
     holds s1 (own ++ lost ++ (e_name x :: olist (e_ns x) ++ olist (e_prefix x)) ++ others s e) B).
  { destruct (e_ctl x) as [|dv dvs v vs a b c d|dv dvs v vs t] eqn:CX; cbn [free_ctl].
    - exists s. split; [reflexivity|]. split; [apply evo_refl|]. refine (holds_perm _ _ _ _ _ H).
      cbn [el_strs]. rewrite CX. cbn [ctl_strs]. perm.
    - destruct (ounref_holds _ _ (own ++ lost ++ (e_name x :: olist (e_ns x) ++ olist (e_prefix x) ++ olist v) ++ others s e) _ dv H) as (s1 & E1 & H1 & V1);
        [cbn [el_strs]; rewrite CX; cbn [ctl_strs]; perm|unfold two32; lia|]. st E1.
      destruct (ounref_holds _ _ (own ++ lost ++ (e_name x :: olist (e_ns x) ++ olist (e_prefix x)) ++ others s e) _ v H1) as (s2 & E2 & H2 & V2);
        [perm|unfold two32; lia|].
      exists s2. split; [exact E2|]. split; [eapply evo_trans; eauto|exact H2].
    - destruct (ounref_holds _ _ (own ++ lost ++ (e_name x :: olist (e_ns x) ++ olist (e_prefix x) ++ olist v ++ olist t) ++ others s e) _ dv H) as (s1 & E1 & H1 & V1);
        [cbn [el_strs]; rewrite CX; cbn [ctl_strs]; perm|unfold two32; lia|]. st E1.
      destruct (ounref_holds _ _ (own ++ lost ++ (e_name x :: olist (e_ns x) ++ olist (e_prefix x) ++ olist t) ++ others s e) _ v H1) as (s2 & E2 & H2 & V2);
        [perm|unfold two32; lia|]. st E2.
      destruct (ounref_holds _ _ (own ++ lost ++ (e_name x :: olist (e_ns x) ++ olist (e_prefix x)) ++ others s e) _ t H2) as (s3 & E3 & H3 & V3);
        [perm|unfold two32; lia|].
      exists s3. split; [exact E3|]. split; [exact (evo_trans _ _ _ V1 (evo_trans _ _ _ V2 V3))|exact H3]. }
  destruct F as (s1 & E1 & V1 & H1).
  destruct (ounref_holds _ _ (own ++ lost ++ (e_name x :: olist (e_ns x)) ++ others s e) _ (e_prefix x) H1) as (s2 & E2 & H2 & V2);
    [perm|unfold two32; lia|].
  destruct (ounref_holds _ _ (own ++ lost ++ (e_name x :: nil) ++ others s e) _ (e_ns x) H2) as (s3 & E3 & H3 & V3);
    [perm|unfold two32; lia|].
  destruct (ounref_holds _ _ (own ++ lost ++ others s e) _ (Some (e_name x)) H3) as (s4 & E4 & H4 & V4);
    [cbn [olist]; perm|unfold two32; lia|]. cbn [o_unref] in E4.
  assert (VV := evo_trans _ _ _ V1 (evo_trans _ _ _ V2 (evo_trans _ _ _ V3 V4))).
  exists UDone, (set_els s4 (put (c_els s4) e None)). split; [|split].
  - unfold bind at 1. rewrite (bind_ok _ _ _ _ _ (get_el_ok _ _ _ E)). st E1. st E2. st E3. st E4. reflexivity.
  - cbn [own_after loses app]. split.
    + apply (holds_same s4); [reflexivity|reflexivity|]. apply (holds_more _ _ B); [|lia]. refine (holds_perm _ _ _ _ _ H4).
      unfold kept. cbn [set_els c_els c_title]. unfold others. destruct VV as (_ & -> & ->). reflexivity.
    + intros e' x' E'. unfold el_at in E'. cbn [set_els c_els] in E'. destruct VV as (_ & VE & _). rewrite VE in E'.
      rewrite (el_put _ _ _ _ (el_len _ _ _ E)) in E'. destruct (Nat.eqb e' e); [discriminate|]. exact (TD e' x' E').
  - destruct VV as (K & _). destruct K as [K1 K2]. split; [exact K1|exact K2].
Qed.

Lemma step_copy e : there s e -> good_step s own lost B (SCopy e).
Proof.
  intros [x E]. left. assert (W' := W). unfold two32 in W'. assert (H := at_perm _ _ E). assert (TD := proj2 I).
  cbn [sexec]. unfold copy_el. rewrite <- (app_nil_l (el_strs (Some x) ++ _)) in H || idtac. cbn [app el_strs] in H.
  destruct (ref_holds _ _ _ (e_name x) H ltac:(mem) ltac:(unfold two32; lia)) as (s1 & E1 & H1 & V1).
  destruct (oref_holds _ _ _ (e_ns x) H1 ltac:(intros i Z; rewrite Z; mem) ltac:(unfold two32; lia)) as (s2 & E2 & H2 & V2).
  destruct (oref_holds _ _ _ (e_prefix x) H2 ltac:(intros i Z; rewrite Z; mem) ltac:(unfold two32; lia)) as (s3 & E3 & H3 & V3).
  assert (F : exists c s4, copy_ctl (e_ctl x) s3 = Ok c s4 /\ evo s3 s4 /\ tidy_ctl c /\
     holds s4 (own ++ lost ++ (e_name x :: olist (e_ns x) ++ olist (e_prefix x) ++ ctl_strs c) ++ kept s) (5 + B)).
  { assert (K := kept_at _ _ _ E). assert (TX := TD _ _ E).
    destruct (e_ctl x) as [|dv dvs v vs a b c d|dv dvs v vs t] eqn:CX; cbn [copy_ctl].
    - eexists _, s3. split; [reflexivity|]. split; [apply evo_refl|]. split; [exact Logic.I|]. apply (holds_more _ _ (3 + B)); [|lia].
      refine (holds_perm _ _ _ _ _ H3). rewrite K. cbn [el_strs]. rewrite CX. cbn [ctl_strs]. perm.
    - destruct (oref_holds _ _ _ dv H3 ltac:(mem) ltac:(unfold two32; lia)) as (s4 & E4 & H4 & V4). st E4.
      destruct (oref_holds _ _ _ v H4 ltac:(mem) ltac:(unfold two32; lia)) as (s5 & E5 & H5 & V5). st E5.
      eexists _, s5. split; [reflexivity|]. split; [exact (evo_trans _ _ _ V4 V5)|]. split; [exact TX|].
      refine (holds_perm _ _ _ _ _ H5). rewrite K. cbn [el_strs]. rewrite CX. cbn [ctl_strs]. perm.
    - destruct (oref_holds _ _ _ dv H3 ltac:(mem) ltac:(unfold two32; lia)) as (s4 & E4 & H4 & V4). st E4.
      destruct (oref_holds _ _ _ v H4 ltac:(mem) ltac:(unfold two32; lia)) as (s5 & E5 & H5 & V5). st E5.
      eexists _, s5. split; [reflexivity|]. split; [exact (evo_trans _ _ _ V4 V5)|]. split; [exact TX|].
      refine (holds_perm _ _ _ _ _ H5). rewrite K. cbn [el_strs]. rewrite CX. cbn [ctl_strs olist]. perm. }
  destruct F as (c & s4 & E4 & V4 & TC & H4). assert (VV := evo_trans _ _ _ V1 (evo_trans _ _ _ V2 (evo_trans _ _ _ V3 V4))).
  eexists _, (set_els s4 (c_els s4 ++ [Some (mkElem (e_name x) (e_ns x) (e_prefix x) c)])). split; [|split].
  - unfold bind at 1. rewrite (bind_ok _ _ _ _ _ (get_el_ok _ _ _ E)). st E1. st E2. st E3. st E4. reflexivity.
  - cbn [own_after loses app]. apply (inv_add' _ (mkElem (e_name x) (e_ns x) (e_prefix x) c)
      (own ++ lost ++ (e_name x :: olist (e_ns x) ++ olist (e_prefix x) ++ ctl_strs c) ++ kept s) (5 + B)); [| | exact TC| | |lia].
    + cbn [set_els c_els]. destruct VV as (_ & -> & _). reflexivity.
    + cbn [set_els c_title]. apply VV.
    + apply (holds_same s4); [reflexivity|reflexivity|exact H4].
    + reflexivity.
  - apply (keep_trans _ s4); [apply VV|apply set_els_keep].
Qed.

Lemma step_title : good_step s own lost B STitle.
Proof.
  left. assert (W' := W). unfold two32 in W'. destruct I as [H TD]. cbn [sexec]. unfold str, get_title.
  destruct (oref_holds _ _ _ (c_title s) H) as (s1 & E1 & H1 & V1);
    [intros i Z; unfold kept; rewrite Z; mem|unfold two32; lia|].
  eexists _, s1. split; [|split; [|apply V1]].
  - unfold bind at 1. rewrite (bind_ok _ _ _ _ _ E1). reflexivity.
  - apply (inv_evo s1 _ _ _ _ V1 H1); [|lia]. cbn [own_after loses app]. destruct (c_title s); cbn [olist]; perm.
Qed.
Lemma step_set_title t : opt_in own t -> good_step s own lost B (SSetTitle t).
Proof.
  intro O. left. assert (W' := W). unfold two32 in W'. destruct I as [H TD]. cbn [sexec]. unfold done, set_title.
  destruct (ounref_holds _ _ (own ++ lost ++ flat_map el_strs (c_els s)) _ (c_title s) H) as (s1 & E1 & H1 & V1);
    [unfold kept; perm|unfold two32; lia|].
  destruct (oref_holds _ _ _ t H1 ltac:(intros i ->; cbn [opt_in] in O; mem) ltac:(unfold two32; lia)) as (s2 & E2 & H2 & V2).
  assert (VV := evo_trans _ _ _ V1 V2).
  exists UDone, (mkCst (c_str s2) (c_nxt s2) (c_els s2) t). split; [|split].
  - unfold bind at 1. rewrite (bind_ok _ _ _ _ _ E1). st E2. reflexivity.
  - cbn [own_after loses app]. split.
    + apply (holds_same s2); [reflexivity|reflexivity|]. apply (holds_more _ _ (S B)); [|lia].
      refine (holds_perm _ _ _ _ _ H2). unfold kept. cbn [c_title c_els]. destruct VV as (_ & -> & _). perm.
    + intros e x E. apply (TD e x). unfold el_at in *. cbn [c_els] in E. destruct VV as (_ & VE & _). rewrite VE in E. exact E.
  - destruct VV as ((K1 & K2) & _). split; [exact K1|exact K2].
Qed.
End Steps.
