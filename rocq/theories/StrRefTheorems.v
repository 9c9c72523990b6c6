(** References, stated for histories. *)
From Coq Require Import List NArith Bool Arith Lia ZifyBool ZifyNat ZifyN Permutation.
From Verif Require Import Base StringModel StrRefModel StrRefSpec StrRefProofs StrRefSteps StrRefCtl.
Import ListNotations.
Local Open Scope dom_scope.

Lemma times_app i a b : times i (a ++ b) = (times i a + times i b)%N.
Proof. unfold times. rewrite count_occ_app. lia. Qed.

Lemma counted k s own lost i : sreach k s own lost -> brief k ->
  refs s i = (times i own + times i (kept s) + times i lost)%N.
Proof.
  intros R Bk. destruct (reach_inv _ _ _ _ R Bk) as [(_ & C & _) _]. rewrite (C i), !times_app. lia.
Qed.
Lemma held k s own lost i : sreach k s own lost -> brief k -> In i own \/ In i (kept s) -> exists b, text s i = Some b.
Proof.
  intros R Bk N. destruct (reach_inv _ _ _ _ R Bk) as [H _].
  destruct (held_alive _ _ _ i H) as (b & c & E); [rewrite !in_app_iff; tauto|].
  exists b. unfold text. rewrite E. reflexivity.
Qed.
Lemma never_bad k s own lost o b : sreach k s own lost -> brief k -> slegal own s o -> calm s o -> sexec o s <> Bad b.
Proof.
  intros R Bk L C. destruct (step_any s own lost _ (reach_inv _ _ _ _ R Bk)) with (o := o)
    as [(u & s2 & E & _)|(x & s2 & E & _)]; auto; try congruence. unfold brief, two32 in *. lia.
Qed.
Lemma let_go k s own lost i : sreach k s own lost -> brief k ->
  ~ In i own -> ~ In i (kept s) -> ~ In i lost -> text s i = None.
Proof.
  intros R Bk A C D. assert (E := counted _ _ _ _ i R Bk). unfold times in E.
  rewrite (proj1 (count_occ_not_In Nat.eq_dec own i) A), (proj1 (count_occ_not_In Nat.eq_dec _ i) C),
    (proj1 (count_occ_not_In Nat.eq_dec _ i) D) in E.
  destruct (reach_inv _ _ _ _ R Bk) as [(_ & _ & P & _) _]. unfold refs in E. unfold text.
  destruct (c_str s i) as [[b c]|] eqn:Q; [|reflexivity]. specialize (P i b c Q). lia.
Qed.

Lemma more_reach s own os s' own' k lost : smore s own os s' own' -> sreach k s own lost ->
  exists lost', sreach (k + length os) s' own' lost'.
Proof.
  intro M. revert k lost. induction M as [s own|s own o u s1 os s2 own2 L C X M IH|s own o x s1 os s2 own2 L C X M IH]; intros k lost R.
  - exists lost. cbn [length]. rewrite Nat.add_0_r. exact R.
  - destruct (IH _ _ (sr_ok _ _ _ _ _ _ _ R L C X)) as [l Z]. exists l. cbn [length]. rewrite Nat.add_succ_r. exact Z.
  - destruct (IH _ _ (sr_exc _ _ _ _ _ _ _ R L C X)) as [l Z]. exists l. cbn [length]. rewrite Nat.add_succ_r. exact Z.
Qed.
Lemma more_keep s own os s' own' k lost : smore s own os s' own' -> sreach k s own lost -> brief (k + length os) -> keep s s'.
Proof.
  intro M. revert k lost. induction M as [s own|s own o u s1 os s2 own2 L C X M IH|s own o x s1 os s2 own2 L C X M IH]; intros k lost R Bk;
    cbn [length] in Bk.
  - apply keep_refl.
  - assert (Bk0 : brief k) by (unfold brief, two32 in *; lia). rewrite Nat.add_succ_r in Bk.
    apply (keep_trans _ s1); [|exact (IH _ _ (sr_ok _ _ _ _ _ _ _ R L C X) Bk)].
    destruct (step_any s own lost _ (reach_inv _ _ _ _ R Bk0)) with (o := o) as [(u' & s3 & E & _ & K)|(x & s3 & E & _)]; auto;
      [unfold brief, two32 in *; lia| |congruence]. rewrite E in X. injection X as _ <-. exact K.
  - assert (Bk0 : brief k) by (unfold brief, two32 in *; lia). rewrite Nat.add_succ_r in Bk.
    apply (keep_trans _ s1); [|exact (IH _ _ (sr_exc _ _ _ _ _ _ _ R L C X) Bk)].
    destruct (step_any s own lost _ (reach_inv _ _ _ _ R Bk0)) with (o := o) as [(u' & s3 & E & _)|(x' & s3 & E & _ & K)]; auto;
      [unfold brief, two32 in *; lia|congruence|]. rewrite E in X. injection X as _ <-. exact K.
Qed.
Lemma bytes_stay k s own lost os s' own' i b : sreach k s own lost -> brief (k + length os) -> smore s own os s' own' ->
  text s i = Some b -> In i own' \/ In i (kept s') -> text s' i = Some b.
Proof.
  intros R Bk M T N. destruct (more_reach _ _ _ _ _ _ _ M R) as [l R'].
  destruct (held _ _ _ _ _ R' Bk N) as [b' T']. destruct (more_keep _ _ _ _ _ _ _ M R Bk) as [_ K].
  rewrite (K i); [exact T| |intro Z; unfold text in T'; rewrite Z in T'; discriminate].
  assert (Bk0 : brief k) by (unfold brief, two32 in *; lia).
  destruct (reach_inv _ _ _ _ R Bk0) as [(F & _) _]. destruct (Nat.lt_ge_cases i (c_nxt s)) as [G|G]; [exact G|].
  unfold text in T. rewrite (F i G) in T. discriminate.
Qed.

(** ** Elements of the SVG namespace *)
Lemma text_data s i b : text s i = Some b -> s_data i s = Ok b s.
Proof. unfold text, s_data. destruct (c_str s i) as [[b' c]|]; cbn; congruence. Qed.
Lemma ns_here s n : text s n = Some svg_ns -> o_data (Some n) s = Ok svg_ns s.
Proof. unfold text. cbn [o_data]. unfold s_data. destruct (c_str s n) as [[b c]|]; cbn; congruence. Qed.
Lemma svg_refl : bytes_eqb svg_ns svg_ns = true.
Proof. reflexivity. Qed.

(** With a prefix the local name is used after it is freed. *)
Lemma svg_prefixed s own lost k n q p l : sreach k s own lost -> brief k -> In n own -> In q own ->
  text s n = Some svg_ns -> text s q = Some (p ++ 58%N :: l) -> ~ In 58%N p -> l <> [] ->
  sexec (SElementNS (Some n) q) s = Bad UseAfterFree.
Proof.
  intros R Bk ON OQ TN TQ NP NL. destruct (reach_inv _ _ _ _ R Bk) as [H _].
  assert (CUT : cut (p ++ 58%N :: l) = Some (p, l)).
  { clear - NP. induction p as [|a p IH]; cbn [app cut]; [reflexivity|].
    destruct (N.eqb_spec a 58) as [->|N]; [exfalso; apply NP; left; reflexivity|].
    rewrite IH; [reflexivity|]. intro Z. apply NP. right. exact Z. }
  destruct (data_holds _ _ _ q H ltac:(mem)) as (d & E0 & T0). rewrite TQ in T0. injection T0 as <-.
  destruct (new_holds _ _ _ p H) as (s1 & E1 & H1 & V1 & T1).
  destruct (new_holds _ _ _ l H1) as (s2 & E2 & H2 & V2 & T2).
  assert (TN2 : text s2 n = Some svg_ns).
  { rewrite <- TN. destruct (evo_trans _ _ _ V1 V2) as ((_ & K) & _). apply K.
    - apply (held_old _ _ _ n H). mem.
    - destruct (held_alive _ _ _ n H2 ltac:(mem)) as (b & c & Z). congruence. }
  assert (E3 : s_data (c_nxt s1) s2 = Ok l s2).
  { exact (text_data _ _ _ T2). }
  destruct (unref_holds _ _ _ _ H2) as (s3 & E4 & H4 & V4); [unfold brief, two32 in *; lia|].
  assert (Z : c_str s3 (c_nxt s1) = None).
  { destruct H4 as (_ & C & P & _). specialize (C (c_nxt s1)). unfold refs in C. unfold times in C.
    rewrite (proj1 (count_occ_not_In Nat.eq_dec _ (c_nxt s1))) in C.
    - destruct (c_str s3 (c_nxt s1)) as [[b c]|] eqn:Q; [|reflexivity]. specialize (P _ _ _ Q). lia.
    - intro Z. apply (held_old _ _ _ _ H1) in Z. lia. }
  cbn [sexec]. unfold create_element_ns, split. unfold bind at 1. unfold bind at 1. unfold bind at 1. rewrite E0, CUT.
  unfold bind at 1. rewrite E1. unfold bind at 1. rewrite E2. cbn [ret fst snd].
  unfold bind at 1. unfold try. unfold create_internal. st E3. destruct l as [|c0 l]; [congruence|].
  st (ns_here s2 n TN2). rewrite svg_refl. unfold bind at 1. rewrite (bind_ok _ _ _ _ _ E4). cbn [ret].
  unfold alloc_el. unfold bind at 1. unfold bind at 1. unfold s_data at 1. rewrite Z. reflexivity.
Qed.

(** Without one the name ends with one reference less instead of one more. *)
Lemma svg_plain s own lost k n q b : sreach k s own lost -> brief k -> In n own -> In q own ->
  text s n = Some svg_ns -> text s q = Some b -> ~ In 58%N b -> b <> [] ->
  exists e s', sexec (SElementNS (Some n) q) s = Ok (UEl e) s' /\
    (refs s' q + 1 = refs s q)%N /\ times q (kept s') = (times q (kept s) + 1)%N.
Proof.
  intros R Bk ON OQ TN TQ NP NL. destruct (reach_inv _ _ _ _ R Bk) as [H TD]. assert (W := Bk). unfold brief, two32 in W.
  assert (NQ : n <> q). { intros ->. rewrite TN in TQ. injection TQ as <-. apply NP. cbn. tauto. }
  assert (CUT : cut b = None).
  { clear - NP. induction b as [|a p IH]; cbn [cut]; [reflexivity|].
    destruct (N.eqb_spec a 58) as [->|N]; [exfalso; apply NP; left; reflexivity|].
    rewrite IH; [reflexivity|]. intro Z. apply NP. right. exact Z. }
  destruct (data_holds _ _ _ q H ltac:(mem)) as (d & E0 & T0). rewrite TQ in T0. injection T0 as <-.
  destruct (ref_holds _ _ _ q H ltac:(mem) ltac:(unfold two32; lia)) as (s1 & E1 & H1 & V1).
  assert (TK : forall i, In i own -> text s1 i = text s i).
  { intros i N. destruct V1 as ((_ & K) & _). apply K; [apply (held_old _ _ _ i H); mem|].
    destruct (held_alive _ _ _ i H1 ltac:(mem)) as (b' & c & Z). congruence. }
  assert (E2 : s_data q s1 = Ok b s1).
  { apply text_data. rewrite (TK q OQ). exact TQ. }
  assert (TN1 : text s1 n = Some svg_ns) by (rewrite (TK n ON); exact TN).
  destruct (unref_holds _ _ _ _ H1 ltac:(unfold two32; lia)) as (s2 & E3 & H3 & V3).
  assert (I2 : inv s2 own lost (S (k * 8))).
  { split; [rewrite (evo_kept _ _ (evo_trans _ _ _ V1 V3)); exact H3|exact (evo_tidy _ _ (evo_trans _ _ _ V1 V3) TD)]. }
  destruct (alloc_ok s2 (S (k * 8)) ltac:(unfold two32; lia) s2 _ _ q (Some n) None (evo_refl s2) H3 ltac:(lia) ltac:(mem)
              ltac:(intros i Z; injection Z as <-; mem) ltac:(discriminate))
    as (e & s3 & c & x & E4 & H4 & K4 & L4 & T4 & X4 & _).
  assert (H4' : holds s3 (q :: q :: take q own ++ n :: lost ++ kept s) (3 + S (k * 8))).
  { refine (holds_perm _ _ _ _ _ H4). cbn [olist app]. rewrite (take_perm q own OQ) at 1. perm. }
  destruct (unref_holds _ _ _ _ H4' ltac:(unfold two32; lia)) as (s4 & E5 & H5 & V5).
  destruct (unref_holds _ _ _ _ H5 ltac:(unfold two32; lia)) as (s5 & E6 & H6 & V6).
  exists e, s5. split; [|split].
  - cbn [sexec]. unfold create_element_ns, split. unfold bind at 1. unfold bind at 1. unfold bind at 1. rewrite E0, CUT.
    unfold bind at 1. rewrite E1. cbn [ret fst snd].
    unfold bind at 1. unfold try. unfold create_internal. st E2. destruct b as [|c0 b]; [congruence|].
    st (ns_here s1 n TN1). rewrite svg_refl. unfold bind at 1. rewrite (bind_ok _ _ _ _ _ E3). cbn [ret].
    st E4. st E5. cbn [ret]. st E6. reflexivity.
  - destruct H6 as (_ & C6 & _). destruct H as (_ & C0 & _). rewrite C6, C0. unfold times.
    assert (Z : count_occ Nat.eq_dec (own ++ lost ++ kept s) q = count_occ Nat.eq_dec (q :: take q own ++ lost ++ kept s) q).
    { apply (Permutation_count_occ Nat.eq_dec). rewrite (take_perm q own OQ) at 1. reflexivity. }
    rewrite Z. counting. unfold one. destruct (Nat.eq_dec n q); [congruence|]. destruct (Nat.eq_dec q q); [|congruence]. lia.
  - assert (VV := evo_trans _ _ _ V5 V6). unfold kept. destruct VV as (_ & -> & ->). rewrite L4, T4.
    destruct (evo_trans _ _ _ V1 V3) as (_ & -> & ->). subst x. unfold times. rewrite flat_map_app.
    cbn [flat_map el_strs e_name e_ns e_prefix e_ctl olist app]. rewrite no_strs. counting. unfold one.
    destruct (Nat.eq_dec n q); [congruence|]. destruct (Nat.eq_dec q q); [|congruence]. lia.
Qed.
(** ... so that the caller's own reference dangles when it was the only one. *)
Lemma svg_dangles s own lost k n q b : sreach k s own lost -> brief k -> In n own -> In q own ->
  text s n = Some svg_ns -> text s q = Some b -> ~ In 58%N b -> b <> [] -> refs s q = 1%N ->
  exists e s', sexec (SElementNS (Some n) q) s = Ok (UEl e) s' /\ text s' q = None /\ In q (kept s') /\
    sexec (SRelease q) s' = Bad UseAfterFree.
Proof.
  intros R Bk ON OQ TN TQ NP NL ONE.
  destruct (svg_plain _ _ _ _ _ _ _ R Bk ON OQ TN TQ NP NL) as (e & s' & E & F & T).
  exists e, s'. split; [exact E|]. 
  assert (IK : In q (kept s')).
  { apply (count_occ_In Nat.eq_dec). unfold times in T. lia. }
  assert (Z : c_str s' q = None \/ exists b0, c_str s' q = Some (b0, 0%N)).
  { rewrite ONE in F. unfold refs in F. destruct (c_str s' q) as [[b0 c]|]; [right|left; reflexivity]. exists b0. repeat f_equal. lia. }
  enough (Q : c_str s' q = None).
  { unfold text. rewrite Q. split; [reflexivity|]. split; [exact IK|]. cbn [sexec]. unfold done, bind, s_unref. rewrite Q. reflexivity. }
  destruct Z as [Z|[b0 Z]]; [exact Z|exfalso].
  (* a count of zero is never kept *)
  revert E. cbn [sexec]. unfold create_element_ns. unfold bind at 1. unfold bind at 1.
  destruct (split q s) as [[pf l] s1| |] eqn:E1; try discriminate. unfold bind at 1. destruct (try _ s1) as [r s2| |] eqn:E2; try discriminate.
  unfold bind at 1. cbn [fst snd]. destruct (s_unref l s2) as [[] s3| |] eqn:E3; try discriminate.
  assert (pf = None /\ l = q) as [-> ->].
  { revert E1. unfold split. unfold bind at 1. destruct (s_data q s) as [d sx| |] eqn:Q; try discriminate.
    assert (d = b /\ sx = s) as [-> ->].
    { rewrite (text_data _ _ _ TQ) in Q. split; congruence. }
    assert (CUT : cut b = None).
    { clear - NP. induction b as [|a p IH]; cbn [cut]; [reflexivity|].
      destruct (N.eqb_spec a 58) as [->|N]; [exfalso; apply NP; left; reflexivity|].
      rewrite IH; [reflexivity|]. intro Z. apply NP. right. exact Z. }
    rewrite CUT. unfold bind. destruct (s_ref q s) as [[] sy| |]; try discriminate. cbn [ret]. intro Z1. injection Z1 as <- <- _. auto. }
  cbn [o_unref]. unfold bind at 1. cbn [ret]. destruct r as [e0|x0]; [|discriminate]. cbn [ret]. intro Z1. injection Z1 as _ <-.
  unfold s_unref in E3. destruct (c_str s2 q) as [[b1 c1]|]; [|discriminate]. injection E3 as <-.
  cbn [set_str c_str] in Z. unfold upd in Z. rewrite Nat.eqb_refl in Z.
  destruct (N.eqb_spec (u32 (c1 + two32 - 1)) 0) as [Q|Q]; [discriminate|]. injection Z as _ Z. contradiction.
Qed.
