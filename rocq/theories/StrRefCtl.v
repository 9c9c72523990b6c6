(** The calls on INPUT and TEXTAREA keep the count of references. *)
From Coq Require Import List NArith Bool Arith Lia ZifyBool ZifyNat ZifyN Permutation.
From Verif Require Import Base StringModel StrRefModel StrRefSpec StrRefProofs StrRefSteps.
Import ListNotations.
Local Open Scope dom_scope.

Section Ctl.
Variables (s : cst) (own lost : list nat) (B : nat).
Hypothesis (I : inv s own lost B) (W : (N.of_nat B + 16 < two32)%N).

Definition base (x : elem) : list nat := e_name x :: olist (e_ns x) ++ olist (e_prefix x).
Lemma inv_fin e x c s' own' lost' L B' : el_at s e = Some x -> tidy_ctl c ->
  c_els s' = put (c_els s) e (Some (with_ctl x c)) -> c_title s' = c_title s -> holds s' L B' ->
  Permutation L (own' ++ lost' ++ base x ++ ctl_strs c ++ others s e) -> B' <= B + 8 ->
  inv s' own' lost' (B + 8).
Proof.
  intros E TC CE CT H P Q. split.
  - apply (holds_more _ _ B'); [|exact Q]. refine (holds_perm _ _ _ _ _ H). rewrite P.
    rewrite (kept_put s e x _ s' E CE CT). cbn [el_strs with_ctl e_name e_ns e_prefix e_ctl]. unfold base. perm.
  - intros e' x' E'. unfold el_at in E'. rewrite CE, (el_put _ _ _ _ (el_len _ _ _ E)) in E'.
    destruct (Nat.eqb e' e); [injection E' as <-; exact TC|]. exact (proj2 I e' x' E').
Qed.
Lemma at_ctl e x c : el_at s e = Some x -> e_ctl x = c -> holds s (own ++ lost ++ base x ++ ctl_strs c ++ others s e) B.
Proof.
  intros E C. refine (holds_perm _ _ _ _ _ (at_perm s own lost B I e x E)). cbn [el_strs]. rewrite C. unfold base. perm.
Qed.
(** Setting the fields; the strings stay. *)
Lemma put_step s1 e x c L B' : el_at s e = Some x -> evo s s1 -> holds s1 L B' ->
  exists s2, set_ctl e c s1 = Ok tt s2 /\ holds s2 L B' /\ keep s s2 /\
    c_els s2 = put (c_els s) e (Some (with_ctl x c)) /\ c_title s2 = c_title s.
Proof.
  intros E V H. assert (E1 : el_at s1 e = Some x) by (rewrite (evo_at _ _ _ V); exact E).
  exists (set_els s1 (put (c_els s1) e (Some (with_ctl x c)))). split; [exact (set_ctl_ok _ _ _ _ E1)|].
  destruct V as (K & CE & CT). split; [apply (holds_same s1); [reflexivity|reflexivity|exact H]|].
  split; [apply (keep_trans _ s1); [exact K|apply set_els_keep]|]. cbn [set_els c_els c_title]. rewrite CE. auto.
Qed.
(** A reference taken after that. *)
Lemma later_ref s2 L B' o e x c : holds s2 L B' -> keep s s2 ->
  c_els s2 = put (c_els s) e (Some (with_ctl x c)) -> c_title s2 = c_title s ->
  (forall i, o = Some i -> In i L) -> B' <= 6 + B ->
  exists s3, o_ref o s2 = Ok tt s3 /\ holds s3 (olist o ++ L) (S B') /\ keep s s3 /\
    c_els s3 = put (c_els s) e (Some (with_ctl x c)) /\ c_title s3 = c_title s.
Proof.
  intros H K CE CT N Q. destruct (oref_holds _ _ _ o H N) as (s3 & E3 & H3 & K3 & CE3 & CT3).
  { revert W. unfold two32. lia. }
  exists s3. split; [exact E3|]. split; [exact H3|]. split; [eapply keep_trans; eauto|]. split; congruence.
Qed.
Ltac bnd := let Z := fresh in assert (Z := W); unfold two32 in *; lia.
Ltac opens E := unfold bind at 1; rewrite (bind_ok _ _ _ _ _ (get_el_ok _ _ _ E)).

Lemma step_set_value e w : opt_in own w -> input s e \/ area s e -> good_step s own lost B (SSetValue e w).
Proof.
  intros O [(x & dv & dvs & v & vs & a & b & c & d & E & C)|(x & dv & dvs & v & vs & t & E & C)]; left;
    assert (TX := proj2 I _ _ E); rewrite C in TX; assert (H := at_ctl _ _ _ E C);
    assert (OI : forall i, w = Some i -> In i own) by (intros i ->; exact O).
  - destruct (ounref_holds _ _ (own ++ lost ++ base x ++ olist dv ++ others s e) _ v H) as (s1 & E1 & H1 & V1);
      [cbn [ctl_strs]; perm|bnd|].
    destruct (put_step s1 e x (Input dv dvs w true a b c d) _ _ E V1 H1) as (s2 & E2 & H2 & K2 & CE2 & CT2).
    destruct (later_ref s2 _ _ w e x _ H2 K2 CE2 CT2 ltac:(intros i Z; apply in_or_app; auto) ltac:(lia)) as (s3 & E3 & H3 & K3 & CE3 & CT3).
    exists UDone, s3. split; [|split; [|exact K3]].
    + cbn [sexec]. unfold done, set_value. opens E. rewrite C. st E1. st E2. rewrite E3. reflexivity.
    + cbn [own_after loses app]. refine (inv_fin e x _ s3 own lost _ _ E _ CE3 CT3 H3 _ _); [split; [apply TX|discriminate]| |lia].
      cbn [ctl_strs]. perm.
  - set (dv' := if dvs then dv else t).
    assert (F : exists s1, (if dvs then ret tt else o_ref t) s = Ok tt s1 /\ evo s s1 /\
       holds s1 (own ++ lost ++ base x ++ olist dv' ++ olist v ++ olist t ++ others s e) (S B)).
    { destruct dvs; subst dv'.
      - exists s. split; [reflexivity|]. split; [apply evo_refl|]. apply (holds_more _ _ B); [|lia].
        refine (holds_perm _ _ _ _ _ H). cbn [ctl_strs]. perm.
      - cbn in TX. rewrite (TX eq_refl) in H. destruct (oref_holds _ _ _ t H) as (s1 & E1 & H1 & V1); [mem|bnd|].
        exists s1. split; [exact E1|]. split; [exact V1|]. refine (holds_perm _ _ _ _ _ H1). cbn [ctl_strs olist]. perm. }
    destruct F as (s1 & E1 & V1 & H1).
    destruct (ounref_holds _ _ (own ++ lost ++ base x ++ olist dv' ++ olist t ++ others s e) _ v H1) as (s2 & E2 & H2 & V2); [perm|bnd|].
    destruct (oref_holds _ _ _ w H2) as (s3 & E3 & H3 & V3); [intros i Z; apply in_or_app; auto|bnd|].
    destruct (ounref_holds _ _ (olist w ++ own ++ lost ++ base x ++ olist dv' ++ others s e) _ t H3) as (s4 & E4 & H4 & V4); [perm|bnd|].
    destruct (oref_holds _ _ _ w H4) as (s5 & E5 & H5 & V5); [intros i Z; apply in_or_app; right; apply in_or_app; auto|bnd|].
    assert (VV := evo_trans _ _ _ V1 (evo_trans _ _ _ V2 (evo_trans _ _ _ V3 (evo_trans _ _ _ V4 V5)))).
    destruct (put_step s5 e x (Area dv' true w true w) _ _ E VV H5) as (s6 & E6 & H6 & K6 & CE6 & CT6).
    exists UDone, s6. split; [|split; [|exact K6]].
    + cbn [sexec]. unfold done, set_value. opens E. rewrite C. st E1. fold dv'. st E2. st E3. st E4. st E5. rewrite E6. reflexivity.
    + cbn [own_after loses app]. refine (inv_fin e x _ s6 own lost _ _ E _ CE6 CT6 H6 _ _); [cbn; discriminate| |lia].
      cbn [ctl_strs]. perm.
Qed.

Lemma step_set_default e w : opt_in own w -> input s e \/ area s e -> good_step s own lost B (SSetDefault e w).
Proof.
  intros O [(x & dv & dvs & v & vs & a & b & c & d & E & C)|(x & dv & dvs & v & vs & t & E & C)]; left;
    assert (TX := proj2 I _ _ E); rewrite C in TX; assert (H := at_ctl _ _ _ E C);
    assert (OI : forall i, w = Some i -> In i own) by (intros i ->; exact O).
  - destruct (ounref_holds _ _ (own ++ lost ++ base x ++ olist v ++ others s e) _ dv H) as (s1 & E1 & H1 & V1);
      [cbn [ctl_strs]; perm|bnd|].
    destruct (put_step s1 e x (Input w true v vs a b c d) _ _ E V1 H1) as (s2 & E2 & H2 & K2 & CE2 & CT2).
    destruct (later_ref s2 _ _ w e x _ H2 K2 CE2 CT2 ltac:(intros i Z; apply in_or_app; auto) ltac:(lia)) as (s3 & E3 & H3 & K3 & CE3 & CT3).
    exists UDone, s3. split; [|split; [|exact K3]].
    + cbn [sexec]. unfold done, set_default. opens E. rewrite C. st E1. st E2. rewrite E3. reflexivity.
    + cbn [own_after loses app]. refine (inv_fin e x _ s3 own lost _ _ E _ CE3 CT3 H3 _ _); [cbn in *; split; [discriminate|tauto]| |lia].
      cbn [ctl_strs]. perm.
  - destruct (ounref_holds _ _ (own ++ lost ++ base x ++ olist v ++ olist t ++ others s e) _ dv H) as (s1 & E1 & H1 & V1);
      [cbn [ctl_strs]; perm|bnd|].
    destruct (put_step s1 e x (Area w true v vs t) _ _ E V1 H1) as (s2 & E2 & H2 & K2 & CE2 & CT2).
    destruct (later_ref s2 _ _ w e x _ H2 K2 CE2 CT2 ltac:(intros i Z; apply in_or_app; auto) ltac:(lia)) as (s3 & E3 & H3 & K3 & CE3 & CT3).
    exists UDone, s3. split; [|split; [|exact K3]].
    + cbn [sexec]. unfold done, set_default. opens E. rewrite C. st E1. st E2. rewrite E3. reflexivity.
    + cbn [own_after loses app]. refine (inv_fin e x _ s3 own lost _ _ E _ CE3 CT3 H3 _ _); [cbn; discriminate| |lia].
      cbn [ctl_strs]. perm.
Qed.

(** A string is answered and nothing else changes. *)
Lemma answer_step o q : (exists i, In i (kept s) /\ q = Some i) \/ q = None ->
  (forall s1, o_ref q s = Ok tt s1 -> sexec o s = Ok (UStr q) s1) ->
  (forall i, own_after own o (UStr (Some i)) = i :: own) -> own_after own o (UStr None) = own -> loses s o = [] ->
  good_step s own lost B o.
Proof.
  intros N X OS ON L. left. destruct I as [H TD]. destruct (oref_holds _ _ _ q H) as (s1 & E1 & H1 & V1).
  { intros i Z. destruct N as [(j & J1 & J2)|J]; [|congruence]. rewrite J2 in Z. injection Z as <-. mem. }
  { bnd. }
  exists (UStr q), s1. split; [auto|]. split; [|apply V1]. rewrite L.
  apply (inv_evo s own lost B I s1 _ _ _ _ V1 H1); [|lia]. destruct q as [i|]; [rewrite OS|rewrite ON]; cbn [olist app]; perm.
Qed.
Lemma in_kept e x i : el_at s e = Some x -> In i (ctl_strs (e_ctl x)) -> In i (kept s).
Proof.
  intros E N. apply (Permutation_in i (Permutation_sym (kept_at _ _ _ E))). cbn [el_strs]. mem.
Qed.
Lemma opt_kept e x q : el_at s e = Some x -> (forall i, q = Some i -> In i (ctl_strs (e_ctl x))) ->
  (exists i, In i (kept s) /\ q = Some i) \/ q = None.
Proof. intros E N. destruct q as [i|]; [left|right; reflexivity]. exists i. split; [|reflexivity]. eapply in_kept; eauto. Qed.

Lemma step_get_default e : input s e \/ area s e -> good_step s own lost B (SDefault e).
Proof.
  intros [(x & dv & dvs & v & vs & a & b & c & d & E & C)|(x & dv & dvs & v & vs & t & E & C)].
  - apply (answer_step _ dv); try reflexivity.
    + apply (opt_kept e x); [exact E|]. rewrite C. mem.
    + intros s1 E1. cbn [sexec]. unfold str, get_default. opens E. rewrite C. st E1. reflexivity.
  - destruct dvs.
    + apply (answer_step _ dv); try reflexivity.
      * apply (opt_kept e x); [exact E|]. rewrite C. mem.
      * intros s1 E1. cbn [sexec]. unfold str, get_default. opens E. rewrite C. st E1. reflexivity.
    + left. assert (TX := proj2 I _ _ E); rewrite C in TX; cbn in TX. assert (Z := TX eq_refl). subst dv.
      assert (H := at_ctl _ _ _ E C). cbn [ctl_strs olist] in H.
      destruct (oref_holds _ _ _ t H) as (s1 & E1 & H1 & V1); [mem|bnd|].
      destruct (put_step s1 e x (Area t true v vs t) _ _ E V1 H1) as (s2 & E2 & H2 & K2 & CE2 & CT2).
      destruct (later_ref s2 _ _ t e x _ H2 K2 CE2 CT2 ltac:(mem) ltac:(lia)) as (s3 & E3 & H3 & K3 & CE3 & CT3).
      exists (UStr t), s3. split; [|split; [|exact K3]].
      * cbn [sexec]. unfold str, get_default. opens E. rewrite C. st E1. st E2. st E3. reflexivity.
      * refine (inv_fin e x _ s3 _ _ _ _ E _ CE3 CT3 H3 _ _); [cbn; discriminate| |lia].
        cbn [own_after loses app ctl_strs]. destruct t; cbn [olist]; perm.
Qed.
Lemma step_get_value e : input s e \/ area s e -> good_step s own lost B (SValue e).
Proof.
  intros [(x & dv & dvs & v & vs & a & b & c & d & E & C)|(x & dv & dvs & v & vs & t & E & C)].
  - apply (answer_step _ (if vs then v else dv)); try reflexivity.
    + apply (opt_kept e x); [exact E|]. rewrite C. destruct vs; mem.
    + intros s1 E1. cbn [sexec]. unfold str, get_value. opens E. rewrite C. destruct vs; st E1; reflexivity.
    + cbn [loses]. rewrite E, C. reflexivity.
  - destruct vs.
    + apply (answer_step _ v); try reflexivity.
      * apply (opt_kept e x); [exact E|]. rewrite C. mem.
      * intros s1 E1. cbn [sexec]. unfold str, get_value. opens E. rewrite C. st E1. reflexivity.
      * cbn [loses]. rewrite E, C. reflexivity.
    + left. assert (H := at_ctl _ _ _ E C). cbn [ctl_strs] in H.
      destruct (oref_holds _ _ _ t H) as (s1 & E1 & H1 & V1); [mem|bnd|].
      destruct (put_step s1 e x (Area dv true t false t) _ _ E V1 H1) as (s2 & E2 & H2 & K2 & CE2 & CT2).
      destruct (later_ref s2 _ _ t e x _ H2 K2 CE2 CT2 ltac:(mem) ltac:(lia)) as (s3 & E3 & H3 & K3 & CE3 & CT3).
      exists (UStr t), s3. split; [|split; [|exact K3]].
      * cbn [sexec]. unfold str, get_value. opens E. rewrite C. st E1. st E2. st E3. reflexivity.
      * refine (inv_fin e x _ s3 _ _ _ _ E _ CE3 CT3 H3 _ _); [cbn; discriminate| |lia].
        cbn [own_after loses app ctl_strs]. rewrite E, C. destruct t; cbn [olist]; perm.
Qed.
Lemma step_set_text e w : opt_in own w -> area s e -> good_step s own lost B (SSetText e w).
Proof.
  intros O (x & dv & dvs & v & vs & t & E & C); left.
  assert (TX := proj2 I _ _ E); rewrite C in TX; assert (H := at_ctl _ _ _ E C).
  assert (OI : forall i, w = Some i -> In i own) by (intros i ->; exact O).
  destruct (ounref_holds _ _ (own ++ lost ++ base x ++ olist dv ++ olist v ++ others s e) _ t H) as (s1 & E1 & H1 & V1);
      [cbn [ctl_strs]; perm|bnd|].
  destruct (oref_holds _ _ _ w H1) as (s2 & E2 & H2 & V2); [intros i Z; apply in_or_app; auto|bnd|].
  destruct (put_step s2 e x (Area dv dvs v vs w) _ _ E (evo_trans _ _ _ V1 V2) H2) as (s3 & E3 & H3 & K3 & CE3 & CT3).
  exists UDone, s3. split; [|split; [|exact K3]].
  - cbn [sexec]. unfold done, set_text. opens E. rewrite C. st E1. st E2. rewrite E3. reflexivity.
  - cbn [own_after loses app]. refine (inv_fin e x _ s3 own lost _ _ E _ CE3 CT3 H3 _ _); [exact TX| |lia].
    cbn [ctl_strs]. perm.
Qed.

(** A call that changes no string. *)
Lemma ctl_step o e x c u : el_at s e = Some x -> tidy_ctl c -> Permutation (ctl_strs c) (ctl_strs (e_ctl x)) ->
  (forall s1, set_ctl e c s = Ok tt s1 -> sexec o s = Ok u s1) ->
  own_after own o u = own -> loses s o = [] -> good_step s own lost B o.
Proof.
  intros E TC P X OA L. left. assert (H := at_ctl _ _ _ E eq_refl).
  destruct (put_step s e x c _ _ E (evo_refl s) H) as (s1 & E1 & H1 & K1 & CE1 & CT1).
  exists u, s1. split; [auto|]. split; [|exact K1]. rewrite OA, L.
  refine (inv_fin e x c s1 _ _ _ _ E _ CE1 CT1 H1 _ _); [exact TC| |lia]. rewrite P. perm.
Qed.
Lemma same_step o u : sexec o s = Ok u s -> own_after own o u = own -> loses s o = [] -> good_step s own lost B o.
Proof.
  intros X OA L. left. exists u, s. split; [exact X|]. split; [|apply keep_refl]. rewrite OA, L. destruct I as [H TD].
  split; [|exact TD]. eapply holds_more; [exact H|lia].
Qed.

Lemma step_attr e n w : In n own -> In w own -> there s e -> good_step s own lost B (SAttr e n w).
Proof.
  intros ON OW [x E]. destruct (data_holds _ _ _ n (proj1 I) ltac:(mem)) as (nm & EN & _).
  destruct (e_ctl x) as [|dv dvs v vs dc dcs ck cks|dv dvs v vs t] eqn:C.
  - apply (same_step _ UDone); [|reflexivity|reflexivity]. cbn [sexec]. unfold done, set_attr. opens E. st EN. rewrite C. reflexivity.
  - assert (TX := proj2 I _ _ E); rewrite C in TX; cbn in TX.
    set (isc := string_caseless_isequal (Some (mk_dstr false nm)) (Some (mk_dstr true n_checked))).
    set (isv := string_caseless_isequal (Some (mk_dstr false nm)) (Some (mk_dstr true n_value))).
    destruct (isv && negb dvs) eqn:Q.
    + apply andb_prop in Q as [Q1 Q2]. apply negb_true_iff in Q2. subst dvs. assert (Z := proj1 TX eq_refl). subst dv. left.
      assert (H := at_ctl _ _ _ E C). cbn [ctl_strs olist] in H.
      destruct (put_step s e x (Input (Some w) true v vs (if isc && negb dcs then true else dc) (if isc then true else dcs) ck cks) _ _ E (evo_refl s) H)
        as (s2 & E2 & H2 & K2 & CE2 & CT2).
      destruct (later_ref s2 _ _ (Some w) e x _ H2 K2 CE2 CT2 ltac:(intros i Z; injection Z as <-; mem) ltac:(lia)) as (s3 & E3 & H3 & K3 & CE3 & CT3).
      cbn [o_ref] in E3. exists UDone, s3. split; [|split; [|exact K3]].
      * cbn [sexec]. unfold done, set_attr. opens E. st EN. rewrite C. fold isc isv. cbv zeta. rewrite Q1. cbn [andb negb].
        st E2. rewrite E3. reflexivity.
      * cbn [own_after loses app]. refine (inv_fin e x _ s3 own lost _ _ E _ CE3 CT3 H3 _ _); [cbn; split; [discriminate|tauto]| |lia].
        cbn [ctl_strs olist app]. perm.
    + apply (ctl_step _ e x (Input dv dvs v vs (if isc && negb dcs then true else dc) (if isc then true else dcs) ck cks) UDone E);
        [exact TX|rewrite C; reflexivity| |reflexivity|reflexivity].
      intros s1 E1. cbn [sexec]. unfold done, set_attr. opens E. st EN. rewrite C. fold isc isv. cbv zeta. rewrite Q. rewrite E1. reflexivity.
  - apply (same_step _ UDone); [|reflexivity|reflexivity]. cbn [sexec]. unfold done, set_attr. opens E. st EN. rewrite C. reflexivity.
Qed.
Lemma step_checked e b : input s e ->
  good_step s own lost B (SSetChecked e b) /\ good_step s own lost B (SChecked e) /\
  good_step s own lost B (SSetDChecked e b) /\ good_step s own lost B (SDChecked e).
Proof.
  intros (x & dv & dvs & v & vs & dc & dcs & ck & cks & E & C). assert (TX := proj2 I _ _ E); rewrite C in TX.
  split; [|split; [|split]].
  - apply (ctl_step _ e x (Input dv dvs v vs dc dcs b true) UDone E); [exact TX|rewrite C; reflexivity| |reflexivity|reflexivity].
    intros s1 E1. cbn [sexec]. unfold done, set_checked. opens E. rewrite C. rewrite E1. reflexivity.
  - apply (same_step _ (UBool (if cks then ck else dc))); [|reflexivity|reflexivity].
    cbn [sexec]. unfold get_checked. opens E. rewrite C. reflexivity.
  - apply (ctl_step _ e x (Input dv dvs v vs b true ck cks) UDone E); [exact TX|rewrite C; reflexivity| |reflexivity|reflexivity].
    intros s1 E1. cbn [sexec]. unfold done, set_dchecked. opens E. rewrite C. rewrite E1. reflexivity.
  - apply (same_step _ (UBool dc)); [|reflexivity|reflexivity].
    cbn [sexec]. unfold get_dchecked. opens E. rewrite C. reflexivity.
Qed.

Lemma step_any o : slegal own s o -> calm s o -> good_step s own lost B o.
Proof.
  intros L CA. destruct o; cbn [slegal] in L.
  - apply step_new; assumption.
  - apply step_ref; assumption.
  - apply step_release; assumption.
  - apply step_element; assumption.
  - apply step_element_ns; try assumption; apply L.
  - apply step_destroy; assumption.
  - apply step_copy; assumption.
  - apply step_set_title; assumption.
  - apply step_title; assumption.
  - apply step_set_value; apply L.
  - apply step_get_value; apply L.
  - apply step_set_default; apply L.
  - apply step_get_default; apply L.
  - apply step_set_text; apply L.
  - apply step_attr; apply L.
  - apply step_checked; assumption.
  - apply (step_checked e true); assumption.
  - apply step_checked; assumption.
  - apply (step_checked e true); assumption.
Qed.
End Ctl.

(** Every history keeps the count. *)
Lemma reach_inv k s own lost : sreach k s own lost -> brief k -> inv s own lost (k * 8).
Proof.
  intro R. induction R as [|k s own lost o u s' R IH L C X|k s own lost o x s' R IH L C X]; intro Bk.
  - split.
    + split; [reflexivity|]. split; [reflexivity|]. split; [discriminate|]. cbn. lia.
    + intros e x E. unfold el_at in E. cbn [blank c_els] in E. destruct e; discriminate.
  - assert (Bk' : brief k) by (unfold brief, two32 in *; lia).
    destruct (step_any s own lost _ (IH Bk') ltac:(unfold brief, two32 in *; lia) o L C)
      as [(u' & s2 & E & J & _)|(x & s2 & E & _)]; [|congruence].
    rewrite E in X. injection X as <- <-. replace (S k * 8) with (k * 8 + 8) by lia. exact J.
  - assert (Bk' : brief k) by (unfold brief, two32 in *; lia).
    destruct (step_any s own lost _ (IH Bk') ltac:(unfold brief, two32 in *; lia) o L C)
      as [(u' & s2 & E & _)|(x' & s2 & E & J & _)]; [congruence|].
    rewrite E in X. injection X as <- <-. replace (S k * 8) with (k * 8 + 8) by lia. exact J.
Qed.
