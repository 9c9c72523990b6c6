(** The document's single root over whole histories; histories by computation. *)
From Coq Require Import List Arith NArith Bool Lia ZifyBool ZifyNat ZifyN.
From Verif Require Import Base HeapModel HeapSpec HeapInv HeapExec HeapTree HeapSplice HeapLoops HeapEdit HeapAttach HeapInsert HeapFrame
  HeapOps HeapReplace HeapReplaceOp HeapRemoveOp HeapDestroy HeapGut HeapUnref HeapCreate HistModel HistProofs TreeSpec TreeProofs TreeProofs2 TreeProofs3 HeapAttrNode.
Import ListNotations.
Local Open Scope dom_scope.

Lemma step_roots : forall k s g, reach k s g -> short (S k) -> roots_ok (s_heap s) ->
  forall o r s', legal s g o -> no_fragment_into_document s o -> exec o s = Ok r s' -> roots_ok (s_heap s').
Proof.
  intros k s g R SH RO o r s' L NF E. destruct (reach_good _ _ _ R (short_pred _ SH)) as [[ch W] AG].
  assert (GT : forall v s2, got s s2 v -> roots_ok (s_heap s2)).
  { intros [v|] s2 G; simpl in G. - destruct G as (n & _ & ->). apply (ref_roots k s g R SH RO v). - subst; auto. }
  assert (NO : forall m v, exec o = nodes_out m -> (exists s2, m s = Ok v s2 /\ got s s2 v) -> roots_ok (s_heap s')).
  { intros m v EX (s2 & M & G). rewrite EX in E. unfold nodes_out in E. erewrite bind_ok in E by exact M. inversion E; subst. eauto. }
  destruct o.
  - destruct (create_document_spec s ch W) as (h' & X & W' & G). unfold exec, node_out in E. erewrite bind_ok in E by exact X. inversion E; subst.
    refine (grown_roots k s g R SH RO _ _ _ _ G _). repeat split.
  - destruct (create_doctype_spec s ch name value None None W) as (h' & X & W' & G). unfold exec, node_out in E. erewrite bind_ok in E by exact X. inversion E; subst.
    refine (grown_roots k s g R SH RO _ _ _ _ G _). repeat split.
  - destruct L as (H & T & TN). destruct (holds_live _ _ _ AG SH _ H) as (nd & A & _).
    assert (TD : n_type nd = DOCUMENT). { unfold type_of in T. rewrite A in T. simpl in T. congruence. }
    destruct (create_node_spec s ch d nd t name value ns prefix W A TD TN) as (h' & X & W' & G).
    unfold exec, node_out in E. erewrite bind_ok in E by exact X. inversion E; subst.
    refine (grown_roots k s g R SH RO _ _ _ _ G _). repeat split.
  - assert (exists x, insert_before p c r0 s = Ok x s').
    { unfold exec, node_out, bind in E. destruct (insert_before p c r0 s); inversion E; subst; eauto. }
    destruct H as [x X]. destruct (insert_full k s g R SH p c r0 L) as ([e|] & _ & Q); [congruence|].
    destruct Q as (s2 & X2 & _). rewrite X2 in X. inversion X; subst. apply (insert_roots k s g R SH RO p x r0); auto.
  - assert (L' : legal s g (OInsert p c None)). { destruct L as (L1 & L2 & L3). repeat (split; auto); discriminate. }
    assert (exists x, insert_before p c None s = Ok x s').
    { unfold exec, node_out, append_child, bind in E. destruct (insert_before p c None s); inversion E; subst; eauto. }
    destruct H as [x X]. destruct (insert_full k s g R SH p c None L') as ([e|] & _ & Q); [congruence|].
    destruct Q as (s2 & X2 & _). rewrite X2 in X. inversion X; subst. apply (insert_roots k s g R SH RO p x None); auto.
  - assert (exists x, replace_child p c old s = Ok x s').
    { unfold exec, node_out, bind in E. destruct (replace_child p c old s); inversion E; subst; eauto. }
    destruct H as [x X]. destruct (replace_full k s g R SH p c old L) as ([e|] & _ & Q); [congruence|].
    destruct Q as (s2 & X2 & _). rewrite X2 in X. inversion X; subst. apply (replace_roots k s g R SH RO p c x); auto.
  - assert (exists x, remove_child p c s = Ok x s').
    { unfold exec, node_out, bind in E. destruct (remove_child p c s); inversion E; subst; eauto. }
    destruct H as [x X]. destruct (remove_full k s g R SH p c L) as ([e|] & _ & Q); [congruence|].
    destruct Q as (s2 & X2 & _). rewrite X2 in X. inversion X; subst. apply (remove_roots k s g R SH RO p x); auto.
  - destruct (holds_live _ _ _ AG SH _ L) as (n & A & _). unfold exec in E. erewrite bind_ok in E; [|eapply node_ref_ok; exact A].
    inversion E; subst. apply (ref_roots k s g R SH RO i).
  - destruct (unref_full k s g R SH i L) as (s2 & X & _). unfold exec in E. erewrite bind_ok in E by exact X. inversion E; subst.
    apply (unref_roots k s g R SH RO i); auto.
  - destruct (holds_live _ _ _ AG SH _ L) as (n & A & _). eapply NO; [reflexivity|]. apply (get_parent_ok s ch W i n A).
  - destruct (holds_live _ _ _ AG SH _ L) as (n & A & _). eapply NO; [reflexivity|]. apply (get_first_ok s ch W i n A).
  - destruct (holds_live _ _ _ AG SH _ L) as (n & A & _). eapply NO; [reflexivity|]. apply (get_last_ok s ch W i n A).
  - destruct L as [L NS]. destruct (holds_live _ _ _ AG SH _ L) as (n & A & _).
    unfold exec, nodes_out, get_previous_sibling in E. rewrite bind_assoc in E. rewrite (bind_ok _ _ _ _ _ _ _ _ (load_ok _ _ _ A)) in E.
    destruct (ntype_eqb (n_type n) ATTRIBUTE). { rewrite bind_ret in E. inversion E; subst; auto. }
    unfold ref_opt in E. destruct (n_prev n) as [v|]; [|rewrite bind_ret in E; inversion E; subst; auto].
    destruct (s_heap s v) as [nv|] eqn:V.
    + erewrite bind_ok in E; [|erewrite bind_ok; [|eapply node_ref_ok; exact V]; reflexivity]. inversion E; subst. apply (ref_roots k s g R SH RO v).
    + unfold bind, node_ref, upd in E. rewrite V in E. discriminate.
  - destruct L as [L NS]. destruct (holds_live _ _ _ AG SH _ L) as (n & A & _).
    unfold exec, nodes_out, get_next_sibling in E. rewrite bind_assoc in E. rewrite (bind_ok _ _ _ _ _ _ _ _ (load_ok _ _ _ A)) in E.
    destruct (ntype_eqb (n_type n) ATTRIBUTE). { rewrite bind_ret in E. inversion E; subst; auto. }
    unfold ref_opt in E. destruct (n_next n) as [v|]; [|rewrite bind_ret in E; inversion E; subst; auto].
    destruct (s_heap s v) as [nv|] eqn:V.
    + erewrite bind_ok in E; [|erewrite bind_ok; [|eapply node_ref_ok; exact V]; reflexivity]. inversion E; subst. apply (ref_roots k s g R SH RO v).
    + unfold bind, node_ref, upd in E. rewrite V in E. discriminate.
  - destruct (usable_ok _ _ _ AG SH _ L) as [(n & A & B) _]. eapply NO; [reflexivity|]. apply (get_owner_ok s ch W i n A B).
  - destruct (holds_live _ _ _ AG SH _ L) as (n & A & _). unfold exec, bool_out in E. erewrite bind_ok in E by (eapply has_child_ok; eauto).
    inversion E; subst; auto.
  - destruct L as [L1 L2]. destruct (holds_live _ _ _ AG SH _ L1) as (n & A & _). destruct (holds_live _ _ _ AG SH _ L2) as (m & B & _).
    destruct (contains_ok s ch W i j n m A B) as (b & X & _). unfold exec, bool_out in E. erewrite bind_ok in E by exact X. inversion E; subst; auto.
  - destruct L as (L1 & L2 & TE & TA & PE & _). destruct (holds_live _ _ _ AG SH _ L1) as (ne & A & _). destruct (holds_live _ _ _ AG SH _ L2) as (na & B & _).
    unfold type_of, parent_of in TE, TA, PE. rewrite A in TE. rewrite B in TA, PE. cbn in TE, TA, PE.
    destruct (set_attribute_node_spec s ch e a ne na W A B ltac:(congruence) ltac:(congruence) PE)
      as [[_ X]|[(_ & _ & X)|[(_ & _ & _ & X)|(_ & _ & P0 & h' & d & l & X & Od & OW & W')]]]; unfold exec in E.
    1-3: erewrite bind_exc in E by exact X; discriminate.
    erewrite bind_ok in E by exact X. inversion E; subst. rewrite withh_heap. apply (links_roots k s g R SH RO).
    + intros j n' J. destruct (owned_inv _ _ _ _ _ OW _ _ J) as (n & N & ->). destruct (own_same e a d j n) as (T1 & T2 & T3 & _).
      destruct (ntype_eqb (n_type n) DOCUMENT) eqn:TD.
      * right. apply ntype_eqb_eq in TD. exists n. split; [auto|]. split; [auto|congruence].
      * left. apply ntype_eqb_neq in TD. congruence.
    + intros j n n' J J'. rewrite (ow_some _ _ _ _ _ OW _ _ J) in J'. injection J' as <-. destruct (own_same e a d j n) as (T1 & T2 & T3 & T4 & T5 & _). auto.
    + intros j [n J]. exists (own e a d j n). apply (ow_some _ _ _ _ _ OW); auto.
Qed.

Lemma one_root : forall k s g, reach_doc k s g -> short k -> roots_ok (s_heap s).
Proof.
  induction 1; intros SH.
  - intros d T. discriminate.
  - eapply step_roots; eauto using reach_doc_reach, short_pred.
  - rewrite (fail_atomic k s g (reach_doc_reach _ _ _ H) SH o e s' H0 H1). eauto using short_pred.
Qed.

(** Sibling links of a node that has a parent. *)
Lemma siblings_live : forall k s g, reach k s g -> short k -> forall i n p, s_heap s i = Some n -> n_parent n = Some p -> n_type n <> ATTRIBUTE ->
  (forall j, n_next n = Some j -> exists m, s_heap s j = Some m /\ n_parent m = Some p /\ n_prev m = Some i) /\
  (forall j, n_prev n = Some j -> exists m, s_heap s j = Some m /\ n_parent m = Some p /\ n_next m = Some i).
Proof.
  intros k s g R SH i n p H P TA. destruct (reach_good _ _ _ R SH) as [[ch (WL & WT & WO & WR)] AG].
  destruct (wt_parent _ _ WT _ _ _ H P) as (np & _ & B & _). destruct (B TA) as [I _].
  apply in_split in I. destruct I as (a & b & E). destruct (wt_links _ _ WT _ _ _ _ E) as (m & M & _ & _ & PV & NX).
  assert (m = n) by congruence; subst m. rewrite PV, NX. split; intros j J.
  - destruct b as [|y b]; [discriminate|]. simpl in J. inversion J; subst y.
    assert (E2 : ch p = (a ++ [i]) ++ j :: b). { rewrite <- app_assoc. auto. }
    destruct (wt_links _ _ WT _ _ _ _ E2) as (m & M' & _ & PP & PV' & _). exists m. rewrite last_error_app in PV'. auto.
  - destruct (last_error_split _ _ _ J) as [a' Ea]. subst a.
    assert (E2 : ch p = a' ++ j :: i :: b). { rewrite E, <- app_assoc. auto. }
    destruct (wt_links _ _ WT _ _ _ _ E2) as (m & M' & _ & PP & _ & NX'). exists m. auto.
Qed.

(** Navigation answers the neighbours in the child lists. *)
Lemma got_answered : forall k s g, reach k s g -> short (S k) -> forall o s', got s s' o -> answered s o s'.
Proof.
  intros k s g R SH o s' G. destruct (reach_good _ _ _ R (short_pred _ SH)) as [[ch W] AG].
  destruct o as [v|]; simpl in G.
  - destruct G as (n & H & ->). split; [reflexivity|]. split; [reflexivity|]. intros j. change (s_heap (withh s (hmod (s_heap s) v ref_up))) with (hmod (s_heap s) v ref_up).
    destruct (s_heap s j) as [m|] eqn:E; [|apply hmod_none; auto]. rewrite (hmod_get _ _ _ _ _ E). unfold oid_eqb, opt_eqb. f_equal.
    rewrite Nat.eqb_sym. destruct (Nat.eqb v j) eqn:Q; auto. apply Nat.eqb_eq in Q; subst j.
    unfold ref_up. pose proof (ag_ref _ _ _ AG _ _ E) as RQ. pose proof (ag_bound _ _ _ AG v) as B. f_equal. unfold u32. rewrite N.mod_small; auto.
    unfold short in SH. lia.
  - subst. split; auto. split; auto. intros j. destruct (s_heap s j); reflexivity.
Qed.

Lemma navigation : forall k s g, reach k s g -> short (S k) -> forall i n l, holds g i -> s_heap s i = Some n -> children (s_heap s) i l ->
  (exists s', get_first_child i s = Ok (hd_error l) s' /\ answered s (hd_error l) s') /\
  (exists s', get_last_child i s = Ok (last_error l) s' /\ answered s (last_error l) s') /\
  has_child_nodes i s = Ok (match l with [] => false | _ => true end) s /\
  (n_type n <> ATTRIBUTE -> exists s', get_parent_node i s = Ok (n_parent n) s' /\ answered s (n_parent n) s') /\
  (n_type n <> DOCUMENT -> used g i = false -> exists s', get_owner_document i s = Ok (n_owner n) s' /\ answered s (n_owner n) s') /\
  (forall p a b, children (s_heap s) p (a ++ i :: b) ->
     (exists s', get_previous_sibling i s = Ok (last_error a) s' /\ answered s (last_error a) s') /\
     (exists s', get_next_sibling i s = Ok (hd_error b) s' /\ answered s (hd_error b) s')) /\
  (n_parent n = None -> n_type n <> ATTRIBUTE -> ~ stranded (s_heap s) i ->
     get_previous_sibling i s = Ok None s /\ get_next_sibling i s = Ok None s).
Proof.
  intros k s g R SH i n l HO H C. pose proof (reach_good _ _ _ R (short_pred _ SH)) as [[ch W] AG]. pose proof W as (WL & WT & WO & WR).
  assert (GA := got_answered k s g R SH).
  assert (L : l = ch i). { apply (wfT_children _ _ WT); auto. exists n; auto. } subst l.
  split. { destruct (get_first_ok s ch W i n H) as (s' & A & B). exists s'. auto. }
  split. { destruct (get_last_ok s ch W i n H) as (s' & A & B). exists s'. auto. }
  split. { eapply has_child_ok; eauto. }
  split. { intros T. destruct (get_parent_ok s ch W i n H) as (s' & A & B). apply ntype_eqb_neq in T. rewrite T in *. exists s'. auto. }
  split. { intros T U. assert (UB : usable_by g i) by (split; auto). destruct (usable_ok _ _ _ AG SH _ UB) as [(m & X & Y) _].
    assert (m = n) by congruence; subst m. destruct (get_owner_ok s ch W i n H Y) as (s' & A & B). apply ntype_eqb_neq in T. rewrite T in *. exists s'. auto. }
  split.
  - intros p a b CP. assert (CH : ch p = a ++ i :: b). { symmetry. apply (wfT_children _ _ WT); auto. eapply children_live; eauto. }
    destruct (get_sibling_ok s ch W i n p a b H CH) as [(s1 & A1 & B1) (s2 & A2 & B2)]. split; [exists s1|exists s2]; auto.
  - intros P T NS. assert (X : n_prev n = None /\ n_next n = None).
    { destruct (n_prev n) eqn:PV; destruct (n_next n) eqn:NX; auto; exfalso; apply NS; exists n; repeat (split; auto); (left; congruence) || (right; congruence). }
    destruct X as [PV NX]. unfold get_previous_sibling, get_next_sibling. rewrite !(bind_ok _ _ _ _ _ _ _ _ (load_ok _ _ _ H)).
    apply ntype_eqb_neq in T. rewrite T, PV, NX. split; reflexivity.
Qed.

Lemma insert_reports : forall k s g, reach k s g -> short (S k) -> forall p c r s', legal s g (OInsert p c r) ->
  insert_before p c r s = Ok c s' -> exists evs, insert_events (s_heap s) p c r evs /\ s_log s' = s_log s ++ evs.
Proof.
  intros k s g R SH p c r s' L E. destruct (insert_full k s g R SH p c r L) as ([e|] & _ & Q); [congruence|].
  destruct Q as (s2 & E2 & _ & _ & _ & X). assert (s2 = s') by congruence; subst. exact X.
Qed.

(** ** Histories by computation *)

Definition heldb (g : client) (i : id) : bool := negb (N.eqb (owns g i) 0).
Definition usableb (g : client) (i : id) : bool := heldb g i && negb (used g i).
Definition typeb (s : st) (i : id) (t : ntype) : bool :=
  match s_heap s i with Some n => ntype_eqb (n_type n) t | None => false end.
Definition emptyb (s : st) (i : id) : bool :=
  match s_heap s i with Some n => is_none (n_first n) | None => false end.
Definition strandedb (s : st) (i : id) : bool :=
  match s_heap s i with
  | Some n => is_none (n_parent n) && negb (is_none (n_prev n) && is_none (n_next n))
  | None => false
  end.
Definition insertb (s : st) (g : client) (p c : id) : bool :=
  usableb g p && usableb g c && (negb (typeb s c FRAGMENT) || typeb s p ELEMENT).

Definition attributeb (s : st) (e a : id) : bool :=
  match s_heap s e, s_heap s a with
  | Some ne, Some na =>
      negb (oid_eqb (n_parent na) (Some e)) && negb (opt_eqb bytes_eqb (n_name na) (Some class_string)) &&
      forallb (fun b => match s_heap s b with Some nb => negb (opt_eqb bytes_eqb (n_name nb) (n_name na)) | None => true end) (n_attrs ne)
  | _, _ => false
  end.

(** A decidable part of [legal]. *)
Definition legalb (s : st) (g : client) (o : op) : bool :=
  match o with
  | ONewDocument | ONewDoctype _ _ => true
  | OCreate d t _ _ _ _ => heldb g d && typeb s d DOCUMENT && negb (ntype_eqb t DOCUMENT)
  | OInsert p c None | OAppend p c => insertb s g p c
  | OInsert p c (Some r) => insertb s g p c && heldb g r && negb (typeb s r ATTRIBUTE)
  | OReplace p c old => usableb g p && usableb g c && heldb g old && negb (typeb s old ATTRIBUTE) &&
      (negb (typeb s c FRAGMENT) || negb (emptyb s c))
  | ORemove p c => heldb g p && heldb g c && negb (typeb s c ATTRIBUTE)
  | OPrev i | ONext i => heldb g i && negb (strandedb s i)
  | OOwner i => usableb g i
  | OContains i j => heldb g i && heldb g j
  | OSetAttribute e a => heldb g e && heldb g a && typeb s e ELEMENT && typeb s a ATTRIBUTE && attributeb s e a
  | ORef i | OUnref i | OParent i | OFirst i | OLast i | OHasChild i => heldb g i
  end.

Lemma heldb_ok : forall g i, heldb g i = true -> holds g i.
Proof. intros g i H. unfold heldb in H. unfold holds. lia. Qed.
Lemma usableb_ok : forall g i, usableb g i = true -> usable_by g i.
Proof. intros g i H. apply andb_prop in H. destruct H as [A B]. split; [apply heldb_ok; auto|]. apply negb_true_iff in B. auto. Qed.
Lemma typeb_ok : forall s i t, typeb s i t = true <-> type_of (s_heap s) i = Some t.
Proof.
  intros s i t. unfold typeb, type_of. destruct (s_heap s i); simpl; [|split; discriminate]. rewrite ntype_eqb_eq. split; congruence.
Qed.
Lemma typeb_no : forall s i t, negb (typeb s i t) = true -> type_of (s_heap s) i <> Some t.
Proof. intros s i t H E. apply typeb_ok in E. rewrite E in H. discriminate. Qed.

Lemma insertb_ok : forall k s g p c, reach k s g -> short k -> insertb s g p c = true ->
  usable_by g p /\ usable_by g c /\
  (type_of (s_heap s) c = Some FRAGMENT -> forall l x, children (s_heap s) c l -> In x l -> may_nest (s_heap s) p x).
Proof.
  intros k s g p c R SH H. apply andb_prop in H. destruct H as [H F]. apply andb_prop in H. destruct H as [A B].
  split; [apply usableb_ok; auto|]. split; [apply usableb_ok; auto|]. intros T l x C I.
  assert (FT := T). apply typeb_ok in FT. rewrite FT in F. simpl in F. apply typeb_ok in F.
  destruct (reach_good _ _ _ R SH) as [[ch (WL & WT & WO & WR)] AG].
  destruct (lists_consistent k s g R SH c) as (l2 & n & X & Y & _ & _ & Z). { eapply children_live; eauto. }
  assert (l = l2). { destruct C as (m & M1 & M2). assert (m = n) by congruence; subst. eapply fwd_det; eauto. } subst l2.
  apply Z in I. destruct I as (nx & N1 & N2 & N3). 
  assert (NE := types_nest k s g R SH x c nx n N1 N2 X N3).
  assert (TN : n_type n = FRAGMENT). { unfold type_of in T. rewrite X in T. simpl in T. congruence. }
  unfold type_of in F. destruct (s_heap s p) as [np|] eqn:P; [|discriminate]. simpl in F. inversion F as [F1].
  exists np, nx. split; auto. split; auto. rewrite TN in NE. rewrite F1. split.
  - apply nests_iff in NE. apply nests_iff. exact NE.
  - discriminate.
Qed.

Ltac andbs := repeat match goal with H : _ && _ = true |- _ => apply andb_prop in H; destruct H end.

Lemma same_name_eqb : forall x : option bytes, opt_eqb bytes_eqb x x = true.
Proof. intros [b|]; auto. cbn. induction b as [|c b IH]; auto. cbn. rewrite N.eqb_refl. auto. Qed.
Lemma attributeb_ok : forall s e a, attributeb s e a = true -> parent_of (s_heap s) a <> Some e /\ new_attribute (s_heap s) e a.
Proof.
  intros s e a H. unfold attributeb in H. destruct (s_heap s e) as [ne|] eqn:He; [|discriminate]. destruct (s_heap s a) as [na|] eqn:Ha; [|discriminate].
  apply andb_prop in H. destruct H as [H F]. apply andb_prop in H. destruct H as [P C]. split.
  - unfold parent_of. rewrite Ha. apply negb_true_iff in P. apply oid_eqb_neq in P. exact P.
  - intros m Hm. assert (m = na) by congruence. subst m. split.
    + intros E. rewrite E, same_name_eqb in C. discriminate.
    + intros ne' b nb He' I Hb E. assert (ne' = ne) by congruence. subst ne'. rewrite forallb_forall in F. specialize (F b I). rewrite Hb, E, same_name_eqb in F. discriminate.
Qed.
Lemma legalb_ok : forall k s g o, reach k s g -> short k -> legalb s g o = true -> legal s g o.
Proof.
  intros k s g o R SH H. destruct o; cbn [legalb legal] in *; auto; andbs; try (apply heldb_ok; assumption).
  - split; [apply heldb_ok; auto|]. split; [apply typeb_ok; auto|]. apply ntype_eqb_neq. apply negb_true_iff. auto.
  - destruct r; andbs.
    + destruct (insertb_ok k s g p c R SH H) as (A & B & C). split; auto. split; auto. split; auto.
      intros j E. inversion E; subst. split; [apply heldb_ok; auto|apply typeb_no; auto].
    + destruct (insertb_ok k s g p c R SH H) as (A & B & C). split; auto. split; auto. split; auto. discriminate.
  - apply (insertb_ok k); auto.
  - split; [apply usableb_ok; auto|]. split; [apply usableb_ok; auto|]. split; [apply heldb_ok; auto|].
    split; [apply typeb_no; auto|]. intros T C. apply typeb_ok in T. rewrite T in H0. simpl in H0.
    destruct C as (n & X & Y). unfold emptyb in H0. rewrite X in H0. inversion Y as [Y1|]. rewrite <- Y1 in H0. discriminate.
  - split; [apply heldb_ok; auto|]. split; [apply heldb_ok; auto|apply typeb_no; auto].
  - split; [apply heldb_ok; auto|]. intros (n & A & B & C). unfold strandedb in H0. rewrite A, B in H0. simpl in H0.
    destruct (n_prev n), (n_next n); simpl in H0; try discriminate. destruct C; congruence.
  - split; [apply heldb_ok; auto|]. intros (n & A & B & C). unfold strandedb in H0. rewrite A, B in H0. simpl in H0.
    destruct (n_prev n), (n_next n); simpl in H0; try discriminate. destruct C; congruence.
  - apply usableb_ok; auto.
  - split; apply heldb_ok; auto.
  - split; [apply heldb_ok; auto|]. split; [apply heldb_ok; auto|]. split; [apply typeb_ok; auto|]. split; [apply typeb_ok; auto|]. apply attributeb_ok; auto.
Qed.

Definition owningb (s : st) (g : client) (o : op) : bool :=
  forallb (heldb g) (passes o) &&
  match o with
  | OCreate d t _ _ _ _ => typeb s d DOCUMENT && negb (ntype_eqb t DOCUMENT)
  | OSetAttribute e a => typeb s e ELEMENT && typeb s a ATTRIBUTE && attributeb s e a
  | _ => true
  end.

Lemma owningb_ok : forall s g o, owningb s g o = true -> owning s g o.
Proof.
  intros s g o H. apply andb_prop in H. destruct H as [A B]. split.
  - apply Forall_forall. intros x I. apply heldb_ok. rewrite forallb_forall in A. auto.
  - destruct o; auto; andbs.
    + split; [apply typeb_ok; auto|]. apply ntype_eqb_neq. apply negb_true_iff. auto.
    + split; [apply typeb_ok; auto|]. split; [apply typeb_ok; auto|]. apply attributeb_ok; auto.
Qed.

(** Run a list of calls, checking each. *)
Fixpoint play (check : st -> client -> op -> bool) (ops : list op) (s : st) (g : client) : option (st * client) :=
  match ops with
  | [] => Some (s, g)
  | o :: r =>
      if check s g o then
        match exec o s with
        | Ok v s' => play check r s' (account s o v g)
        | Exc _ s' => play check r s' g
        | Bad _ => None
        end
      else None
  end.

Lemma play_reach : forall ops k s g s' g', reach k s g -> short (k + length ops) -> play legalb ops s g = Some (s', g') ->
  reach (k + length ops) s' g'.
Proof.
  induction ops as [|o ops]; intros k s g s' g' R SH P; cbn [play length] in *.
  - inversion P; subst. rewrite Nat.add_0_r. auto.
  - destruct (legalb s g o) eqn:L; [|discriminate]. rewrite Nat.add_succ_r in *. 
    assert (SK : short k) by (unfold short in *; lia). apply (legalb_ok k) in L; auto.
    destruct (exec o s) as [v s2|e s2|b] eqn:E; [| |discriminate].
    + apply (IHops (S k) s2 (account s o v g) s' g'); auto. eapply reach_call; eauto.
    + apply (IHops (S k) s2 g s' g'); auto. eapply reach_fail; eauto.
Qed.

Lemma play_any : forall ops k s g s' g', reach_any k s g -> play owningb ops s g = Some (s', g') -> reach_any (k + length ops) s' g'.
Proof.
  induction ops as [|o ops]; intros k s g s' g' R P; cbn [play length] in *.
  - inversion P; subst. rewrite Nat.add_0_r. auto.
  - destruct (owningb s g o) eqn:L; [|discriminate]. rewrite Nat.add_succ_r. apply owningb_ok in L.
    destruct (exec o s) as [v s2|e s2|b] eqn:E; [| |discriminate].
    + apply (IHops (S k) s2 (account s o v g) s' g'); auto. eapply any_call; eauto.
    + apply (IHops (S k) s2 g s' g'); auto. eapply any_fail; eauto.
Qed.

Definition played (ops : list op) : st * client :=
  match play legalb ops empty_st no_client with Some r => r | None => (empty_st, no_client) end.
Definition playedb (ops : list op) : bool :=
  match play legalb ops empty_st no_client with Some _ => true | None => false end.
Definition played_any (ops : list op) : st * client :=
  match play owningb ops empty_st no_client with Some r => r | None => (empty_st, no_client) end.
Definition played_anyb (ops : list op) : bool :=
  match play owningb ops empty_st no_client with Some _ => true | None => false end.

Lemma played_reach : forall ops, playedb ops = true -> short (length ops) -> reach (length ops) (fst (played ops)) (snd (played ops)).
Proof.
  intros ops H SH. unfold playedb, played in *. destruct (play legalb ops empty_st no_client) as [[s g]|] eqn:E; [|discriminate].
  apply (play_reach ops 0 empty_st no_client s g); auto. constructor.
Qed.
Lemma played_any_reach : forall ops, played_anyb ops = true -> reach_any (length ops) (fst (played_any ops)) (snd (played_any ops)).
Proof.
  intros ops H. unfold played_anyb, played_any in *. destruct (play owningb ops empty_st no_client) as [[s g]|] eqn:E; [|discriminate].
  apply (play_any ops 0 empty_st no_client s g); auto. constructor.
Qed.
