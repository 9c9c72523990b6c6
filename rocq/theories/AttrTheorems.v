(** Consequences of the dictionary and of the refinement: C27, C28, C29, C51. *)
From Coq Require Import List Arith NArith Bool Lia ZifyBool ZifyNat ZifyN.
From Verif Require Import Base StringModel StringSpec StringProofs NameModel RingModel RingSpec RingProofs AttrModel AttrSpec AttrRing AttrProofs AttrRun AttrGood AttrMapSpec AttrMaps.
Import ListNotations.
Local Open Scope dom_scope.

Lemma dreach_areach : forall P k s Q W, dreach P k s Q W -> areach k s Q.
Proof. intros P k s Q W D. induction D; [constructor|eapply ar_ok; eauto|eapply ar_exc; eauto]. Qed.

Lemma dreach_mirror : forall (P : world -> aop -> Prop), (forall W o, P W o -> unambiguous W o) -> forall k s Q W, dreach P k s Q W -> (N.of_nat k < 4294967290)%N -> mirror Q W.
Proof.
  intros P IMP k s Q W D. induction D; intros B.
  - constructor; cbn; auto; try discriminate.
  - destruct (areach_sim k s Q (dreach_areach _ _ _ _ _ D)) as [GD _]; [lia|]. apply (mirror_step k); auto. apply IHD. lia.
  - destruct (areach_sim k s Q (dreach_areach _ _ _ _ _ D)) as [GD _]; [lia|]. apply (mirror_step k); auto. apply IHD. lia.
Qed.

(** ** Histories without namespaces are unambiguous *)
Definition null_keys (W : world) : Prop := forall e ro d c, w_el W e = Some (ro, d) -> In c (map fst d) -> fst c = None.
Lemma null_step : forall W o, null_keys W -> plain W o -> null_keys (writes_dict o W).
Proof.
  intros W o N P. destruct o; cbn [writes_dict]; auto.
  - intros e ro' d c. cbn [w_el]. destruct (put_cases _ (w_el W) (w_n W) (Some (ro, [])) e) as [[-> Q]|[NE Q]]; rewrite Q; intros E I; [inversion E; subst; destruct I|]. eapply N; eauto.
  - destruct (w_el W e) as [[[|] d]|] eqn:WE; auto. destruct (attribute_name_ok name); auto. assert (NS : ns = None) by (eapply P; reflexivity). subst ns.
    intros e' ro' d' c. cbn [put_dict w_el]. destruct (put_cases _ (w_el W) e (Some (false, store d (None, name) (shown v))) e') as [[-> Q]|[NE Q]]; rewrite Q; intros E I; [|eapply N; eauto].
    inversion E; subst. rewrite store_keys in I. destruct (existsb _ _); [eapply N; eauto|]. apply in_app_iff in I as [I|[<-|[]]]; [eapply N; eauto|auto].
  - destruct (w_el W e) as [[[|] d]|] eqn:WE; auto.
    intros e' ro' d' c. cbn [put_dict w_el]. destruct (put_cases _ (w_el W) e (Some (false, delete d (ns, name))) e') as [[-> Q]|[NE Q]]; rewrite Q; intros E I; [|eapply N; eauto].
    inversion E; subst. apply in_map_iff in I as (p & <- & I). apply filter_In in I as [I _]. eapply N; eauto. apply in_map; auto.
Qed.
Lemma plain_null : forall k s Q W, dreach plain k s Q W -> null_keys W.
Proof. intros k s Q W D. induction D; [intros e ro d c; cbn; discriminate|apply null_step; auto..]. Qed.
Lemma null_unambiguous : forall W o, null_keys W -> unambiguous W o.
Proof. intros W o N e k ro d _ WE u. apply lookup_in. intros I. apply (N e ro d) in I; auto. discriminate. Qed.
Lemma plain_unambiguous : forall k s Q W, dreach plain k s Q W -> dreach unambiguous k s Q W.
Proof.
  intros k s Q W D. induction D; [constructor|..].
  - eapply dr_ok; eauto. apply null_unambiguous. eapply plain_null; eauto.
  - eapply dr_exc; eauto. apply null_unambiguous. eapply plain_null; eauto.
Qed.

(** ** Answers *)
Section Answers.
  Variables (k : nat) (s : ast) (Q : attrs) (W : world).
  Hypotheses (D : dreach unambiguous k s Q W) (B : (N.of_nat k < 4294967280)%N).

  Lemma dr_good : good k Q.
  Proof. apply (areach_sim k s Q (dreach_areach _ _ _ _ _ D)). lia. Qed.
  Lemma dr_mirror : mirror Q W.
  Proof. refine (dreach_mirror unambiguous (fun _ _ H => H) k s Q W D _). lia. Qed.
  Lemma dr_refine : forall o, alegal Q o -> answer (aexec o s) = Some (fst (qmeans o Q)).
  Proof. intros o AL. refine (attributes_refine k s Q o (dreach_areach _ _ _ _ _ D) _ AL). lia. Qed.
  Lemma dr_el : forall e ro d, w_el W e = Some (ro, d) -> exists y, q_el Q e = Some y /\ q_ro y = ro /\ d = dict_of Q (q_ents y).
  Proof. intros e ro d WE. rewrite (mi_el _ _ dr_mirror) in WE. destruct (q_el Q e) as [y|]; [|discriminate]. inversion WE; subst. eauto. Qed.

  Lemma dict_get : forall e ro d ns n, w_el W e = Some (ro, d) -> unambiguous W (AGet e ns n) ->
    answer (aexec (AGet e ns n) s) = Some (RVal (lookup d (ns, n))).
  Proof.
    intros e ro d ns n WE U. destruct (dr_el e ro d WE) as (y & Y & _ & ->). rewrite dr_refine by (cbn; unfold an_element; congruence).
    cbn [qmeans]. rewrite Y. rewrite lookup_entry by (eapply clear_entries; eauto using dr_mirror; reflexivity).
    destruct (entry ns n (q_ents y)) as [z|] eqn:E; auto. cbn [option_map]. destruct (gd_ent _ _ dr_good e y z Y (entry_in _ _ _ _ E)) as (x & X & _). unfold val. rewrite X. auto.
  Qed.
  Lemma dict_has : forall e ro d ns n, w_el W e = Some (ro, d) -> unambiguous W (AHas e ns n) ->
    answer (aexec (AHas e ns n) s) = Some (RBool (match lookup d (ns, n) with Some _ => true | None => false end)).
  Proof.
    intros e ro d ns n WE U. destruct (dr_el e ro d WE) as (y & Y & _ & ->). rewrite dr_refine by (cbn; unfold an_element; congruence).
    cbn [qmeans]. rewrite Y. rewrite lookup_entry by (eapply clear_entries; eauto using dr_mirror; reflexivity).
    destruct (entry ns n (q_ents y)) as [z|]; auto.
  Qed.
  Lemma dict_length : forall e ro d, w_el W e = Some (ro, d) -> answer (aexec (ALength e) s) = Some (RNum (N.of_nat (length d))).
  Proof.
    intros e ro d WE. destruct (dr_el e ro d WE) as (y & Y & _ & ->). rewrite dr_refine by (cbn; unfold an_element; congruence).
    cbn [qmeans]. rewrite Y. unfold dict_of. rewrite List.map_length. auto.
  Qed.
  Lemma dict_keys : forall e ro d, w_el W e = Some (ro, d) -> NoDup (map fst d).
  Proof. intros e ro d WE. destruct (dr_el e ro d WE) as (y & Y & _ & ->). unfold dict_of. rewrite map_map. cbn [fst]. apply (mi_nd _ _ dr_mirror e y Y). Qed.
  Lemma answer_ok : forall o r, answer (aexec o s) = Some r -> (forall e, r <> RErr e) -> exists s', aexec o s = Ok r s'.
  Proof. intros o r A N. destruct (aexec o s); cbn in A; inversion A; subst; eauto. exfalso. eapply N; eauto. Qed.
  Lemma dict_item : forall e ro d i, w_el W e = Some (ro, d) -> (i < 4294967296)%N ->
    match (if (i <? N.of_nat (length d))%N then nth_error d (N.to_nat i) else None) with
    | Some (c, v) => exists a s', aexec (AItem e i) s = Ok (RAttr (Some a)) s' /\
         answer (aexec (AName a) s') = Some (RVal (Some (snd c))) /\ answer (aexec (AValue a) s') = Some (RVal (Some v))
    | None => answer (aexec (AItem e i) s) = Some (RAttr None)
    end.
  Proof.
    intros e ro d i WE BI. destruct (dr_el e ro d WE) as (y & Y & _ & ->).
    assert (AL : alegal Q (AItem e i)) by (split; auto; unfold an_element; congruence).
    pose proof (dr_refine _ AL) as R. cbn [qmeans] in R. rewrite Y in R. unfold dict_of. rewrite List.map_length.
    destruct (i <? N.of_nat (length (q_ents y)))%N eqn:LT; auto. rewrite nth_error_map.
    destruct (nth_error (q_ents y) (N.to_nat i)) as [n|] eqn:NE; cbn [option_map]; auto.
    pose proof (nth_error_In _ _ NE) as IN. destruct (gd_ent _ _ dr_good e y n Y IN) as (x & X & PX & NX). rewrite X in R. cbn [fst] in R.
    destruct (answer_ok _ _ R) as (s' & E); [discriminate|]. exists (l_attr n), s'. split; auto.
    assert (AR : areach (S k) s' (snd (qmeans (AItem e i) Q))) by (eapply ar_ok; eauto; eapply dreach_areach; eauto).
    assert (QA : q_at (snd (qmeans (AItem e i) Q)) (l_attr n) = Some (set_aref (a_ref x + 1) x)).
    { cbn [qmeans]. rewrite Y, LT, NE, X. cbn. apply put_same. }
    assert (OW : owned (snd (qmeans (AItem e i) Q)) (l_attr n)) by (eexists; split; [exact QA|cbn; lia]).
    split.
    - rewrite (attributes_refine (S k) s' _ (AName (l_attr n)) AR) by (try exact OW; lia). cbn [qmeans]. cbn [qmeans] in QA. rewrite QA. cbn [fst].
      destruct (mi_st _ _ dr_mirror e y n x Y IN X) as (_ & _ & PF). unfold qualified. cbn [set_aref a_prefix a_local nk snd]. rewrite PF, NX. auto.
    - rewrite (attributes_refine (S k) s' _ (AValue (l_attr n)) AR) by (try exact OW; lia). cbn [qmeans]. cbn [qmeans] in QA. rewrite QA. cbn [fst].
      unfold val. rewrite X. auto.
  Qed.

  (** Writing, and what is read then. *)
  Lemma dict_set : forall j e d ns n v, w_el W e = Some (false, d) -> a_name n -> attribute_name_ok n = true -> unambiguous W (ASet j e ns n v) ->
    exists s', aexec (ASet j e ns n v) s = Ok RDone s' /\ dreach unambiguous (S k) s' (snd (qmeans (ASet j e ns n v) Q)) (put_dict W e (store d (ns, n) (shown v))).
  Proof.
    intros j e d ns n v WE AN OK U. destruct (dr_el e false d WE) as (y & Y & RO & ED).
    assert (AL : alegal Q (ASet j e ns n v)) by (split; auto; unfold an_element; congruence).
    assert (R : answer (aexec (ASet j e ns n v) s) = Some RDone).
    { rewrite dr_refine by auto. cbn [qmeans]. destruct j as [[b sh] i]. rewrite Y, OK, RO. cbn [negb].
      pose proof (clear_entries Q W _ e ns n y dr_mirror U eq_refl Y) as CL.
      destruct (entry ns n (q_ents y)) as [z|] eqn:E; auto. destruct (entry_key _ _ _ _ CL E) as [IN KN].
      destruct (gd_ent _ _ dr_good e y z Y IN) as (x & X & _). rewrite X. destruct (mi_st _ _ dr_mirror e y z x Y IN X) as (T1 & T2 & _).
      unfold writes. rewrite T1, T2. auto. }
    destruct (answer_ok _ _ R) as (s' & E); [discriminate|]. exists s'. split; auto.
    pose proof (dr_ok unambiguous k s Q W (ASet j e ns n v) RDone s' D I U AL E) as ST. cbn [writes_dict] in ST. rewrite WE, OK in ST. exact ST.
  Qed.
  Lemma dict_remove : forall e d ns n, w_el W e = Some (false, d) -> unambiguous W (ARemove e ns n) ->
    exists s', aexec (ARemove e ns n) s = Ok RDone s' /\ dreach unambiguous (S k) s' (snd (qmeans (ARemove e ns n) Q)) (put_dict W e (delete d (ns, n))).
  Proof.
    intros e d ns n WE U. destruct (dr_el e false d WE) as (y & Y & RO & ED).
    assert (AL : alegal Q (ARemove e ns n)) by (unfold alegal, an_element; congruence).
    assert (R : answer (aexec (ARemove e ns n) s) = Some RDone).
    { rewrite dr_refine by auto. cbn [qmeans]. rewrite Y, RO. destruct (entry ns n (q_ents y)) as [z|] eqn:E; auto.
      destruct (gd_ent _ _ dr_good e y z Y (entry_in _ _ _ _ E)) as (x & X & _). rewrite X. auto. }
    destruct (answer_ok _ _ R) as (s' & E); [discriminate|]. exists s'. split; auto.
    pose proof (dr_ok unambiguous k s Q W (ARemove e ns n) RDone s' D I U AL E) as ST. cbn [writes_dict] in ST. rewrite WE in ST. exact ST.
  Qed.
End Answers.

(** ** Class names *)
Definition classes_of (d : dict) : list bytes := match lookup d class_key with Some v => class_split (c_string v) [] | None => [] end.

Lemma is_class_key : forall ns n, is_class ns n = key_eqb (ns, n) class_key.
Proof. intros [u|] n; unfold is_class, key_eqb, class_key; cbn; auto. Qed.

Lemma quiet_els : forall o Q, (match o with ANew _ _ _ | ASet _ _ _ _ _ | ARemove _ _ _ | ASetNode _ _ _ | ARemoveNode _ _ _ => False | _ => True end) ->
  forall e, q_el (snd (qmeans o Q)) e = q_el Q e.
Proof.
  intros o Q H e0. destruct o; try contradiction; cbn [qmeans]; try destruct junk as [[? ?] ?];
    repeat match goal with |- context [match ?t with _ => _ end] => destruct t end; try reflexivity;
    unfold retype; repeat match goal with |- context [match ?t with _ => _ end] => destruct t end; reflexivity.
Qed.
Lemma quiet_world : forall o W, (match o with ANew _ _ _ | ASet _ _ _ _ _ | ARemove _ _ _ | ASetNode _ _ _ | ARemoveNode _ _ _ => False | _ => True end) -> writes_dict o W = W.
Proof. intros o W H. destruct o; auto; contradiction. Qed.

Definition classed (Q : attrs) (W : world) : Prop := forall e y ro d, q_el Q e = Some y -> w_el W e = Some (ro, d) -> q_cls y = classes_of d.

Lemma classed_step : forall k Q W o, good k Q -> mirror Q W -> classed Q W -> by_name o -> class_once W o -> alegal Q o -> classed (snd (qmeans o Q)) (writes_dict o W).
Proof.
  intros k Q W o GD MI CL BN [U ONCE] AL.
  destruct o; cbn [by_name] in BN; try contradiction;
    try (rewrite quiet_world by exact I; intros e0 y0 ro0 d0; rewrite quiet_els by exact I; apply CL; fail).
  - (* ANew *) cbn [qmeans snd writes_dict]. intros e y ro' d. cbn [q_el w_el]. rewrite (mi_n _ _ MI). unfold put. destruct (Nat.eqb e (q_nel Q)).
    + intros E1 E2; inversion E1; inversion E2; subst. reflexivity.
    + apply CL.
  - (* ASet *) destruct junk as [[b sh] i]. destruct AL as [AE NM]. destruct (el_some Q e AE) as [y Y].
    pose proof (clear_entries Q W _ e ns name y MI U eq_refl Y) as CE.
    assert (WE : w_el W e = Some (q_ro y, dict_of Q (q_ents y))) by (rewrite (mi_el _ _ MI), Y; auto).
    cbn [qmeans writes_dict]. rewrite Y, WE. destruct (attribute_name_ok name); cbn [negb]; [|destruct (q_ro y); auto]. destruct (q_ro y) eqn:RO; auto.
    pose proof (lookup_entry Q (q_ents y) ns name CE) as LE. pose proof (CL e y _ _ Y WE) as CY.
    assert (NC : (ns, name) = class_key -> lookup (dict_of Q (q_ents y)) class_key = None).
    { intros K. inversion K; subst. apply (ONCE _ _ WE eq_refl). }
    assert (ST : classes_of (store (dict_of Q (q_ents y)) (ns, name) (shown v)) = if is_class ns name then class_split (c_string (shown v)) [] else q_cls y).
    { unfold classes_of. rewrite is_class_key. destruct (key_eqb (ns, name) class_key) eqn:K.
      - apply key_eqb_iff in K. rewrite K, lookup_store_same. auto.
      - apply key_eqb_no in K. rewrite lookup_store_other by congruence. rewrite CY. reflexivity. }
    destruct (entry ns name (q_ents y)) as [n|] eqn:E.
    + destruct (entry_key _ _ _ _ CE E) as [IN KN]. destruct (gd_ent _ _ GD e y n Y IN) as (x & X & PX & NX). rewrite X.
      assert (SAME : forall e', q_el (snd (retype Q (l_attr n) (writes x v))) e' = q_el Q e') by (intros e'; destruct (writes x v); reflexivity).
      intros e' y' ro' d'. rewrite SAME. cbn [put_dict w_el]. match goal with |- _ -> put (w_el W) e ?D e' = _ -> _ => destruct (put_cases _ (w_el W) e D e') as [[-> P]|[N P]] end; rewrite P; intros Y' W'; [|eapply CL; eauto].
      inversion W'; subst. assert (y' = y) by congruence; subst y'. rewrite ST. rewrite is_class_key. destruct (key_eqb (ns, name) class_key) eqn:K; auto.
      apply key_eqb_iff in K. specialize (NC K). rewrite <- K, LE in NC. discriminate.
    + cbv zeta. cbn [snd]. intros e' y' ro' d'. cbn [gain put_at put_el put_dict q_el w_el].
      match goal with |- _ -> put (w_el W) e ?D e' = _ -> _ => destruct (put_cases _ (w_el W) e D e') as [[-> P]|[N P]] end; rewrite P.
      * rewrite put_same. intros Y' W'. inversion Y'; inversion W'; subst. cbn [q_cls]. rewrite ST. unfold value. cbn. rewrite app_nil_r. destruct v; auto.
      * rewrite put_other by auto. intros Y' W'. eapply CL; eauto.
  - (* ARemove *) cbn [alegal] in AL. destruct (el_some Q e AL) as [y Y].
    pose proof (clear_entries Q W _ e ns name y MI U eq_refl Y) as CE.
    assert (WE : w_el W e = Some (q_ro y, dict_of Q (q_ents y))) by (rewrite (mi_el _ _ MI), Y; auto).
    cbn [qmeans writes_dict]. rewrite Y, WE. destruct (q_ro y) eqn:RO; auto. pose proof (CL e y _ _ Y WE) as CY.
    assert (DT : classes_of (delete (dict_of Q (q_ents y)) (ns, name)) = if is_class ns name then [] else q_cls y).
    { unfold classes_of. rewrite is_class_key. destruct (key_eqb (ns, name) class_key) eqn:K.
      - apply key_eqb_iff in K. rewrite K, lookup_delete_same. auto.
      - apply key_eqb_no in K. rewrite lookup_delete_other by congruence. rewrite CY. reflexivity. }
    destruct (entry ns name (q_ents y)) as [n|] eqn:E.
    + destruct (entry_key _ _ _ _ CE E) as [IN KN]. destruct (gd_ent _ _ GD e y n Y IN) as (x & X & PX & NX). rewrite X. cbn [snd].
      intros e' y' ro' d'. unfold drop. cbn [put_at put_el put_dict q_el w_el].
      match goal with |- _ -> put (w_el W) e ?D e' = _ -> _ => destruct (put_cases _ (w_el W) e D e') as [[-> P]|[N P]] end; rewrite P.
      * rewrite put_same. intros Y' W'. inversion Y'; inversion W'; subst. cbn [q_cls]. rewrite DT. inversion KN; subst. auto.
      * rewrite put_other by auto. intros Y' W'. eapply CL; eauto.
    + cbn [snd]. intros e' y' ro' d'. cbn [put_dict w_el].
      match goal with |- _ -> put (w_el W) e ?D e' = _ -> _ => destruct (put_cases _ (w_el W) e D e') as [[-> P]|[N P]] end; rewrite P; intros Y' W'; [|eapply CL; eauto].
      inversion W'; subst. assert (y' = y) by congruence; subst y'. rewrite DT, is_class_key. destruct (key_eqb (ns, name) class_key) eqn:K; auto.
      apply key_eqb_iff in K. rewrite CY. unfold classes_of. rewrite <- K. rewrite lookup_entry by auto. rewrite E. auto.
Qed.

Lemma dreach_classed : forall k s Q W, dreach class_once k s Q W -> (N.of_nat k < 4294967290)%N -> classed Q W.
Proof.
  intros k s Q W D. induction D; intros B.
  - intros e y ro d. cbn. discriminate.
  - destruct (areach_sim k s Q (dreach_areach _ _ _ _ _ D)) as [GD _]; [lia|].
    assert (MI : mirror Q W) by (refine (dreach_mirror class_once (fun W o (H : class_once W o) => proj1 H) k s Q W D _); lia).
    apply (classed_step k); auto. apply IHD. lia.
  - destruct (areach_sim k s Q (dreach_areach _ _ _ _ _ D)) as [GD _]; [lia|].
    assert (MI : mirror Q W) by (refine (dreach_mirror class_once (fun W o (H : class_once W o) => proj1 H) k s Q W D _); lia).
    apply (classed_step k); auto. apply IHD. lia.
Qed.

(** *** Words *)
Definition solid (w : bytes) : Prop := forallb (fun x => negb (blank x)) w = true.
Lemma solid_app : forall a b, solid (a ++ b) <-> solid a /\ solid b.
Proof. intros a b. unfold solid. rewrite forallb_app, andb_true_iff. tauto. Qed.
Lemma solid_cons : forall x a, solid (x :: a) <-> blank x = false /\ solid a.
Proof. intros x a. unfold solid. cbn [forallb]. rewrite andb_true_iff, negb_true_iff. tauto. Qed.

Lemma word_cut : forall c w x r, solid w -> blank x = true -> (word c (w ++ x :: r) <-> (c = w /\ w <> []) \/ word c r).
Proof.
  intros c w x r SW BX. split.
  - intros (CN & CS & pre & post & E & PR & PO). fold (solid c) in CS. symmetry in E. apply app_eq_app in E as (l & [[E1 E2]|[E1 E2]]).
    + right. destruct l as [|z l].
      * simpl in E2. destruct c as [|z c]; [congruence|]. simpl in E2. inversion E2; subst. apply solid_cons in CS as [CS _]. congruence.
      * simpl in E2. inversion E2; subst. split; [auto|]. split; [auto|]. exists l, post. split; auto. split; auto.
        destruct PR as [PR|(p & q & PR & BQ)]; [destruct w; discriminate|]. destruct l as [|a l'] using rev_ind; [left; auto|right]. clear IHl'.
        exists l', a. split; auto. replace (w ++ z :: l' ++ [a]) with ((w ++ z :: l') ++ [a]) in PR by (rewrite <- app_assoc; auto).
        apply app_inj_tail in PR as [_ ->]. auto.
    + left. assert (PE : pre = []). { destruct PR as [PR|(p & q & -> & BQ)]; auto. subst w. apply solid_app in SW as [SW _]. apply solid_app in SW as [_ SW]. apply solid_cons in SW as [SW _]. congruence. }
      subst pre. simpl in E1. subst l. apply app_eq_app in E2 as (l & [[E1 E2]|[E1 E2]]).
      * destruct l as [|z l]; [rewrite app_nil_r in E1; subst; auto|]. simpl in E2. inversion E2; subst. apply solid_app in CS as [_ CS]. apply solid_cons in CS as [CS _]. congruence.
      * destruct l as [|z l]; [rewrite app_nil_r in E1; subst; auto|]. subst w. apply solid_app in SW as [_ SW]. apply solid_cons in SW as [SW _].
        destruct PO as [PO|(q & p & PO & BQ)]; rewrite PO in E2; [discriminate|]. inversion E2; subst. congruence.
  - intros [[-> WN]|(CN & CS & pre & post & E & PR & PO)].
    + split; auto. split; auto. exists [], (x :: r). split; auto. split; auto. right. exists x, r. auto.
    + split; auto. split; auto. exists (w ++ x :: pre), post. split; [rewrite E, <- app_assoc; auto|]. split; auto. right.
      destruct PR as [->|(p & q & -> & BQ)]; [exists w, x; auto|]. exists (w ++ x :: p), q. split; auto. rewrite <- app_assoc. auto.
Qed.
Lemma word_all : forall c w, solid w -> (word c w <-> c = w /\ w <> []).
Proof.
  intros c w SW. split.
  - intros (CN & CS & pre & post & E & PR & PO). subst w. apply solid_app in SW as [S1 S2]. apply solid_app in S2 as [_ S2].
    assert (pre = []). { destruct PR as [PR|(p & q & -> & BQ)]; auto. apply solid_app in S1 as [_ S1]. apply solid_cons in S1 as [S1 _]. congruence. }
    assert (post = []). { destruct PO as [PO|(q & p & -> & BQ)]; auto. apply solid_cons in S2 as [S2 _]. congruence. }
    subst. simpl. rewrite app_nil_r. auto.
  - intros [-> WN]. split; auto. split; auto. exists [], []. rewrite app_nil_r. auto.
Qed.
Lemma split_words : forall v w c, spaced v -> solid w -> (In c (class_split v w) <-> word c (w ++ v)).
Proof.
  induction v as [|x v IH]; intros w c SP SW.
  - rewrite app_nil_r, word_all by auto. destruct w; simpl; [split; [tauto|]; intros [_ H]; congruence|]. split; [intros [<-|[]]; split; auto; discriminate|]. intros [-> _]; auto.
  - inversion SP as [|? ? [NZ BL] SP']; subst. cbn [class_split]. destruct (x =? 32)%N eqn:X.
    + assert (x = 32%N) by lia. subst x. rewrite word_cut by auto. destruct w as [|z w].
      * rewrite IH by (auto; reflexivity). simpl. split; auto. intros [[_ H]|H]; [congruence|auto].
      * simpl In. rewrite IH by (auto; reflexivity). simpl app. split; intros [H|H]; auto; left; [split; [auto|discriminate]|]. destruct H; auto.
    + assert (BX : blank x = false). { destruct (blank x) eqn:B; auto. rewrite (BL eq_refl) in X. discriminate. }
      rewrite IH; auto; [rewrite <- app_assoc; simpl; tauto|]. apply solid_app. split; auto. apply solid_cons. split; auto. reflexivity.
Qed.
Lemma c_string_spaced : forall v, spaced v -> c_string v = v.
Proof. intros v S. induction S as [|x v [NZ _] S IH]; simpl; auto. assert (Z : (x =? 0)%N = false) by lia. rewrite Z, IH. auto. Qed.

Lemma class_answers : forall k s Q W e y ro d c, dreach class_once k s Q W -> (N.of_nat k < 4294967280)%N ->
  q_el Q e = Some y -> w_el W e = Some (ro, d) ->
  (forall v, lookup d class_key = Some v -> spaced v) ->
  exists b, answer (aexec (AClass e c) s) = Some (RBool b) /\
    (b = true <-> exists v t, lookup d class_key = Some v /\ word t v /\ (if q_quirks y then map lower c = map lower t else c = t)).
Proof.
  intros k s Q W e y ro d c D B Y WE SP.
  assert (CL : classed Q W) by (refine (dreach_classed k s Q W D _); lia).
  assert (R : answer (aexec (AClass e c) s) = Some (fst (qmeans (AClass e c) Q))).
  { refine (attributes_refine k s Q (AClass e c) (dreach_areach _ _ _ _ _ D) _ _); [lia|]. unfold alegal, an_element. congruence. }
  cbn [qmeans] in R. rewrite Y in R. cbn [fst] in R. rewrite (CL e y ro d Y WE) in R. eexists. split; [exact R|].
  rewrite existsb_exists. unfold classes_of. destruct (lookup d class_key) as [v|] eqn:LV.
  - specialize (SP v eq_refl). rewrite c_string_spaced by auto. split.
    + intros (t & IT & ET). exists v, t. split; auto. apply split_words in IT; auto; [|reflexivity]. split; auto.
      destruct (q_quirks y); [destruct (bytes_eqb_spec (map lower c) (map lower t)); congruence|destruct (bytes_eqb_spec c t); congruence].
    + intros (v' & t & EV & WT & ET). inversion EV; subst v'. exists t. split; [apply split_words; auto; reflexivity|].
      destruct (q_quirks y); [rewrite ET; apply beq_refl|subst; apply beq_refl].
  - split; [intros (t & [] & _)|intros (v & t & EV & _); discriminate].
Qed.
