(** Reading after writing, in terms of the calls. *)
From Coq Require Import List Arith NArith Bool Lia ZifyBool ZifyNat ZifyN.
From Verif Require Import Base StringModel StringSpec StringProofs NameModel AttrModel AttrSpec AttrRing AttrProofs AttrRun AttrGood AttrMapSpec AttrMaps AttrTheorems.
Import ListNotations.

Definition same_element (e e' : nat) (c c' : key) : bool := Nat.eqb e e' && key_eqb c c'.

Section Laws.
  Variables (k : nat) (s : ast) (Q : attrs) (W : world).
  Hypotheses (D : dreach unambiguous k s Q W) (B : (N.of_nat k < 4294967279)%N).

  Lemma el_known : forall e, w_el W e <> None -> exists ro d, w_el W e = Some (ro, d).
  Proof. intros e H. destruct (w_el W e) as [[ro d]|]; [eauto|congruence]. Qed.

  (** A write of [e] gives the dictionary [d']. *)
  Lemma read_back : forall e d d' s' Q' ns n, w_el W e = Some (false, d) -> dreach unambiguous (S k) s' Q' (put_dict W e d') ->
    (forall c, c <> (ns, n) -> lookup d' c = lookup d c) ->
    forall e' ns' n', w_el W e' <> None -> unambiguous W (AGet e' ns' n') -> unambiguous (put_dict W e d') (AGet e' ns' n') ->
    answer (aexec (AGet e' ns' n') s') = (if same_element e' e (ns', n') (ns, n) then Some (RVal (lookup d' (ns, n))) else answer (aexec (AGet e' ns' n') s)) /\
    answer (aexec (AHas e' ns' n') s') = (if same_element e' e (ns', n') (ns, n) then Some (RBool match lookup d' (ns, n) with Some _ => true | None => false end) else answer (aexec (AHas e' ns' n') s)).
  Proof.
    intros e d d' s' Q' ns n WE D' OTH e' ns' n' KN U U'. destruct (el_known e' KN) as (ro & d0 & WE').
    rewrite (dict_get k s Q W D ltac:(lia) e' ro d0 ns' n' WE' U), (dict_has k s Q W D ltac:(lia) e' ro d0 ns' n' WE' U).
    destruct (put_cases _ (w_el W) e (Some (false, d')) e') as [[-> P]|[N P]].
    - rewrite WE in WE'. inversion WE'; subst ro d0.
      rewrite (dict_get (S k) s' Q' _ D' ltac:(lia) e false d' ns' n' P U'), (dict_has (S k) s' Q' _ D' ltac:(lia) e false d' ns' n' P U').
      unfold same_element. rewrite Nat.eqb_refl. cbn [andb]. destruct (key_eqb (ns', n') (ns, n)) eqn:K.
      + apply key_eqb_iff in K. rewrite K. auto.
      + apply key_eqb_no in K. rewrite OTH by auto. auto.
    - rewrite (dict_get (S k) s' Q' _ D' ltac:(lia) e' ro d0 ns' n' ltac:(cbn [put_dict w_el]; rewrite P; auto) U'), (dict_has (S k) s' Q' _ D' ltac:(lia) e' ro d0 ns' n' ltac:(cbn [put_dict w_el]; rewrite P; auto) U').
      unfold same_element. replace (Nat.eqb e' e) with false by (symmetry; apply Nat.eqb_neq; auto). auto.
  Qed.

  (** A query that stays clear of the namespaced names. *)
  Definition clear (e : nat) (ns : option bytes) (n : bytes) (e' : nat) (ns' : option bytes) (n' : bytes) : Prop :=
    unambiguous W (AGet e' ns' n') /\ (e' = e -> ns' = None -> n' = n -> ns = None).

  Lemma clear_store : forall e d ns n v e' ns' n', w_el W e = Some (false, d) -> clear e ns n e' ns' n' ->
    unambiguous (put_dict W e (store d (ns, n) v)) (AGet e' ns' n').
  Proof.
    intros e d ns n v e' ns' n' WE [U C] e0 k0 ro0 d0 A WE0 u. inversion A; subst e0 ns' k0. cbn [put_dict w_el] in WE0.
    destruct (put_cases _ (w_el W) e (Some (false, store d (ns, n) v)) e') as [[-> P]|[N P]]; rewrite P in WE0.
    - inversion WE0; subst ro0 d0. rewrite lookup_store_other; [eapply U; eauto; reflexivity|]. intros E. inversion E; subst. specialize (C eq_refl eq_refl eq_refl). discriminate.
    - eapply U; eauto; reflexivity.
  Qed.
  Lemma clear_delete : forall e d c e' ns' n', w_el W e = Some (false, d) -> unambiguous W (AGet e' ns' n') ->
    unambiguous (put_dict W e (delete d c)) (AGet e' ns' n').
  Proof.
    intros e d c e' ns' n' WE U e0 k0 ro0 d0 A WE0 u. inversion A; subst e0 ns' k0. cbn [put_dict w_el] in WE0.
    destruct (put_cases _ (w_el W) e (Some (false, delete d c)) e') as [[-> P]|[N P]]; rewrite P in WE0.
    - inversion WE0; subst ro0 d0. destruct (key_eqb (Some u, n') c) eqn:K.
      + apply key_eqb_iff in K. rewrite K. apply lookup_delete_same.
      + apply key_eqb_no in K. rewrite lookup_delete_other by auto. eapply U; eauto; reflexivity.
    - eapply U; eauto; reflexivity.
  Qed.

  Lemma set_law : forall j e d ns n v, w_el W e = Some (false, d) -> a_name n -> attribute_name_ok n = true -> unambiguous W (AGet e ns n) ->
    exists s', aexec (ASet j e ns n v) s = Ok RDone s' /\
    forall e' ns' n', w_el W e' <> None -> clear e ns n e' ns' n' ->
      answer (aexec (AGet e' ns' n') s') = (if same_element e' e (ns', n') (ns, n) then Some (RVal (Some (shown v))) else answer (aexec (AGet e' ns' n') s)) /\
      answer (aexec (AHas e' ns' n') s') = (if same_element e' e (ns', n') (ns, n) then Some (RBool true) else answer (aexec (AHas e' ns' n') s)).
  Proof.
    intros j e d ns n v WE AN OK U. destruct (dict_set k s Q W D ltac:(lia) j e d ns n v WE AN OK U) as (s' & E & D').
    exists s'. split; auto. intros e' ns' n' KN CL.
    pose proof (read_back e d _ s' _ ns n WE D' (fun c N => lookup_store_other d (ns, n) (shown v) c N) e' ns' n' KN (proj1 CL) (clear_store _ _ _ _ _ _ _ _ WE CL)) as R.
    rewrite lookup_store_same in R. exact R.
  Qed.
  Lemma remove_law : forall e d ns n, w_el W e = Some (false, d) -> unambiguous W (AGet e ns n) ->
    exists s', aexec (ARemove e ns n) s = Ok RDone s' /\
    forall e' ns' n', w_el W e' <> None -> unambiguous W (AGet e' ns' n') ->
      answer (aexec (AGet e' ns' n') s') = (if same_element e' e (ns', n') (ns, n) then Some (RVal None) else answer (aexec (AGet e' ns' n') s)) /\
      answer (aexec (AHas e' ns' n') s') = (if same_element e' e (ns', n') (ns, n) then Some (RBool false) else answer (aexec (AHas e' ns' n') s)).
  Proof.
    intros e d ns n WE U. destruct (dict_remove k s Q W D ltac:(lia) e d ns n WE U) as (s' & E & D').
    exists s'. split; auto. intros e' ns' n' KN U'.
    pose proof (read_back e d _ s' _ ns n WE D' (fun c N => lookup_delete_other d (ns, n) c N) e' ns' n' KN U' (clear_delete _ _ _ _ _ _ WE U')) as R.
    rewrite lookup_delete_same in R. exact R.
  Qed.
  Lemma failing_set : forall j e ro d ns n v, w_el W e = Some (ro, d) -> a_name n -> unambiguous W (AGet e ns n) -> ro = true \/ attribute_name_ok n = false ->
    answer (aexec (ASet j e ns n v) s) = Some (RErr (if attribute_name_ok n then NO_MODIFICATION_ALLOWED_ERR else INVALID_CHARACTER_ERR)).
  Proof.
    intros [[b sh] i] e ro d ns n v WE AN U BAD. destruct (dr_el k s Q W D ltac:(lia) e ro d WE) as (y & Y & RO & _).
    rewrite (dr_refine k s Q W D ltac:(lia)) by (split; auto; unfold an_element; congruence). cbn [qmeans]. rewrite Y.
    destruct (attribute_name_ok n); cbn [negb]; auto. destruct BAD; [|discriminate]. rewrite RO, H. auto.
  Qed.
End Laws.

(** Without namespaces every query is clear. *)
Section Plain.
  Variables (k : nat) (s : ast) (Q : attrs) (W : world).
  Hypotheses (D : dreach plain k s Q W) (B : (N.of_nat k < 4294967279)%N).
  Let U := plain_unambiguous k s Q W D.
  Lemma plain_query : forall o, unambiguous W o.
  Proof. intros o. apply null_unambiguous. eapply plain_null; eauto. Qed.
  Lemma plain_get : forall e ro d n, w_el W e = Some (ro, d) -> answer (aexec (AGet e None n) s) = Some (RVal (lookup d (None, n))).
  Proof. intros e ro d n WE. apply (dict_get k s Q W U ltac:(lia) e ro d None n WE (plain_query _)). Qed.
  Lemma plain_has : forall e ro d n, w_el W e = Some (ro, d) -> answer (aexec (AHas e None n) s) = Some (RBool match lookup d (None, n) with Some _ => true | None => false end).
  Proof. intros e ro d n WE. apply (dict_has k s Q W U ltac:(lia) e ro d None n WE (plain_query _)). Qed.
  Lemma plain_length : forall e ro d, w_el W e = Some (ro, d) -> answer (aexec (ALength e) s) = Some (RNum (N.of_nat (length d))).
  Proof. intros e ro d WE. apply (dict_length k s Q W U ltac:(lia) e ro d WE). Qed.
  Lemma plain_item : forall e ro d i, w_el W e = Some (ro, d) -> (i < 4294967296)%N ->
    match (if (i <? N.of_nat (length d))%N then nth_error d (N.to_nat i) else None) with
    | Some (c, v) => exists a s', aexec (AItem e i) s = Ok (RAttr (Some a)) s' /\
         answer (aexec (AName a) s') = Some (RVal (Some (snd c))) /\ answer (aexec (AValue a) s') = Some (RVal (Some v))
    | None => answer (aexec (AItem e i) s) = Some (RAttr None)
    end.
  Proof. intros e ro d i WE. apply (dict_item k s Q W U ltac:(lia) e ro d i WE). Qed.
  Lemma plain_names : forall e ro d, w_el W e = Some (ro, d) -> NoDup (map snd (map fst d)) /\ forall c, In c (map fst d) -> fst c = None.
  Proof.
    intros e ro d WE. assert (N : forall c, In c (map fst d) -> fst c = None) by (intros c I; eapply (plain_null k s Q W D); eauto).
    split; auto. pose proof (dict_keys k s Q W U ltac:(lia) e ro d WE) as ND. revert N ND. generalize (map fst d) as l. induction l as [|c l IH]; intros N ND; cbn; constructor; inversion ND; subst.
    - intros I. apply in_map_iff in I as (c' & E & I). apply H1. assert (c = c') as ->; auto. pose proof (N c (or_introl eq_refl)). pose proof (N c' (or_intror I)). destruct c, c'; cbn in *; congruence.
    - apply IH; auto. intros c' I. apply N. right; auto.
  Qed.
  Lemma plain_set : forall j e d n v, w_el W e = Some (false, d) -> a_name n -> attribute_name_ok n = true ->
    exists s', aexec (ASet j e None n v) s = Ok RDone s' /\
    forall e' n', w_el W e' <> None ->
      answer (aexec (AGet e' None n') s') = (if Nat.eqb e' e && bytes_eqb n' n then Some (RVal (Some (shown v))) else answer (aexec (AGet e' None n') s)) /\
      answer (aexec (AHas e' None n') s') = (if Nat.eqb e' e && bytes_eqb n' n then Some (RBool true) else answer (aexec (AHas e' None n') s)).
  Proof.
    intros j e d n v WE AN OK. destruct (set_law k s Q W U B j e d None n v WE AN OK (plain_query _)) as (s' & E & L).
    exists s'. split; auto. intros e' n' KN. apply (L e' None n' KN). split; auto using plain_query.
  Qed.
  Lemma plain_remove : forall e d n, w_el W e = Some (false, d) ->
    exists s', aexec (ARemove e None n) s = Ok RDone s' /\
    forall e' n', w_el W e' <> None ->
      answer (aexec (AGet e' None n') s') = (if Nat.eqb e' e && bytes_eqb n' n then Some (RVal None) else answer (aexec (AGet e' None n') s)) /\
      answer (aexec (AHas e' None n') s') = (if Nat.eqb e' e && bytes_eqb n' n then Some (RBool false) else answer (aexec (AHas e' None n') s)).
  Proof.
    intros e d n WE. destruct (remove_law k s Q W U B e d None n WE (plain_query _)) as (s' & E & L).
    exists s'. split; auto. intros e' n' KN. apply (L e' None n' KN). apply plain_query.
  Qed.
End Plain.

(** Setting a name again keeps its place, removing keeps the order of the others. *)
Lemma set_in_place : forall d c v, lookup d c <> None -> map fst (store d c v) = map fst d.
Proof.
  intros d c v H. rewrite store_keys. replace (existsb (fun b => key_eqb b c) (map fst d)) with true; auto. symmetry.
  destruct (existsb (fun b => key_eqb b c) (map fst d)) eqn:E; auto. exfalso. apply H. apply lookup_in. intros I.
  assert (X : existsb (fun b => key_eqb b c) (map fst d) = true) by (apply existsb_exists; exists c; split; auto using key_eqb_refl). congruence.
Qed.
Lemma set_at_end : forall d c v, lookup d c = None -> store d c v = d ++ [(c, v)].
Proof. intros d c v H. unfold store. rewrite H. auto. Qed.
