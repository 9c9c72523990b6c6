(** insertBefore and removeChild as a whole. *)
From Coq Require Import List Arith NArith Bool Lia ZifyBool ZifyNat ZifyN.
From Verif Require Import Base HeapModel HeapSpec HeapInv HeapExec HeapTree HeapSplice HeapLoops HeapEdit HeapAttach HeapInsert HeapFrame.
Import ListNotations.
Local Open Scope dom_scope.

Lemma nests_iff : forall p c, nests p c <-> type_permitted p c = true.
Proof.
  split.
  - intros H. destruct H; simpl in *; intuition; subst; reflexivity.
  - intros H. destruct p; try discriminate; destruct c; try discriminate;
      first [apply nests_content; simpl; tauto | apply nests_attr; simpl; tauto | apply nests_document; simpl; tauto].
Qed.

Lemma may_nest_iff : forall s ch p c, wfT (s_heap s) ch -> (may_nest (s_heap s) p c <-> permitted s ch p c).
Proof.
  intros s ch p c W. unfold may_nest, permitted. split; intros (np & nc & A & B & C & D); exists np, nc; split; auto; split; auto; split; auto.
  - apply nests_iff; auto.
  - intros T1 T2 x nx I. apply (D T1 T2 (ch p)); auto. apply (wfT_children _ _ W); auto. exists np; auto.
  - apply nests_iff; auto.
  - intros T1 T2 l x nx L I. apply (wfT_children _ _ W) in L; [|exists np; auto]. subst. eauto.
Qed.

Lemma without_eq : forall i l, without i l = remove_id i l.
Proof. reflexivity. Qed.

Lemma before_split : forall r l, In r l -> exists a b, l = a ++ r :: b /\ forall xs, before r xs l = a ++ xs ++ r :: b.
Proof.
  induction l as [|y l]; intros I. { destruct I. }
  cbn [before]. destruct (Nat.eqb_spec y r).
  - subst. exists [], l. split; auto.
  - destruct I as [->|I]; [congruence|]. destruct (IHl I) as (a & b & E & F). exists (y :: a), b. split; [simpl; congruence|].
    intros xs. rewrite F. reflexivity.
Qed.

Lemma insert_at_split : forall r l, (forall i, r = Some i -> In i l) ->
  exists a b, l = a ++ b /\ hd_error b = r /\ forall xs, insert_at r xs l = a ++ xs ++ b.
Proof.
  intros [r|] l H.
  - destruct (before_split r l) as (a & b & E & F). { auto. } exists a, (r :: b). split; auto.
  - exists l, []. split; [rewrite app_nil_r; auto|]. split; auto. intros xs. rewrite app_nil_r. reflexivity.
Qed.

(** A node that belongs to a document and has not been used up as a fragment. *)
Definition usable (h : heap) (i : id) : Prop := exists n, h i = Some n /\ ~ spent n.

(** The caller's references. *)
Definition held (h : heap) (i : id) : Prop := exists n, h i = Some n /\ (n_ref n > 0)%N /\ no_wrap n.

(** The children of every node after a successful insertion. *)
Definition inserted (h : heap) (ch : id -> list id) (p c : id) (r : option id) (j : id) : list id :=
  if oid_eqb r (Some c) then ch j
  else match type_of h c with
       | Some FRAGMENT => if Nat.eqb j p then insert_at r (ch c) (ch p) else if Nat.eqb j c then [] else ch j
       | _ => if Nat.eqb j p then insert_at r [c] (without c (ch p)) else without c (ch j)
       end.

(** Nothing but links, owner, pending state and one reference count may change;
    only [g] may leave its document's pending list. *)
Record edited (h h' : heap) (g : option id) (c : id) : Prop := mkEdited {
  ed_none : forall j, h j = None -> h' j = None;
  ed_some : forall j n, h j = Some n -> exists n', h' j = Some n' /\ n_type n' = n_type n /\ n_attrs n' = n_attrs n /\
     n_name n' = n_name n /\ n_value n' = n_value n /\ n_ns n' = n_ns n /\ n_prefix n' = n_prefix n /\
     n_classes n' = n_classes n /\ n_ro n' = n_ro n /\
     n_ref n' = (if Nat.eqb j c then n_ref n + 1 else n_ref n)%N /\
     (n_owner n' = n_owner n \/ n_owner n = None) /\
     (n_pending n = true -> n_pending n' = true \/ g = Some j)
}.

(** The events of an insertion. *)
Definition insert_log (h : heap) (p c : id) (r : option id) (t : rose) : list event :=
  if oid_eqb r (Some c) then []
  else match type_of h c with
       | Some FRAGMENT => match kids t with [] => [] | ks => flat_map (log_inserted p) ks ++ [EvSubtree p] end
       | _ => (match parent_of h c with
               | Some q => log_removed q c t ++ [EvSubtree q]
               | None => []
               end) ++ log_inserted p t ++ [EvSubtree p]
       end.

Lemma repr_spliced_out : forall h h' ch p d a c b t nd, wfT h ch -> wfO h ch -> ch p = a ++ c :: b ->
  h d = Some nd -> n_type nd = DOCUMENT ->
  spliced h h' p d a [c] b [] None None -> repr h t -> root t = c -> repr h' t.
Proof.
  intros h h' ch p d a c b t nd WT WO CH Hd Td SP R Rc.
  destruct (wt_links _ _ WT _ _ _ _ CH) as (nc & Hc & TA & PC & PV & NX).
  apply subtree_frame with (h := h) (ch := ch); auto; rewrite Rc.
  - intros n Hn. destruct (sp_some _ _ _ _ _ _ _ _ _ _ SP _ _ Hn) as (n' & A & B1 & B2 & B3 & B4 & B5 & _).
    exists n'. split; auto. assert (NE : c <> p). { intros ->. refine (anc_proper_neq h p nc p p _ Hc PC (anc_refl h p) eq_refl). apply (wt_rooted _ _ WT). exists nc; auto. }
    apply Nat.eqb_neq in NE. rewrite NE in *. simpl in B4, B5. repeat split; auto.
  - intros j n J NJ Hj. destruct (sp_some _ _ _ _ _ _ _ _ _ _ SP _ _ Hj) as (n' & A & B1 & B2 & B3 & B4 & B5 & B6 & _).
    exists n'. split; auto. destruct (below_neq _ _ WT _ _ _ _ Hc PC J NJ) as (N1 & N2 & N3).
    apply Nat.eqb_neq in N1. rewrite N1 in *.
    assert (M : mem j [c] = false). { apply mem_notin. intros [X|[]]; congruence. }
    rewrite M in *. simpl in B3, B4, B5. destruct (B6 eq_refl) as [B7 B8].
    assert (SB : forall x, In x (a ++ b) -> j <> x).
    { intros x I. assert (In x (ch p)). { rewrite CH. apply in_app_or in I. apply in_or_app. destruct I; auto. right; right; auto. }
      destruct (wt_child _ _ WT _ _ H) as (nx & _ & X1 & _ & _ & X2 & _). eauto. }
    rewrite (not_hd b j) in B7 by (intros I; apply (SB j); auto; apply in_or_app; auto).
    rewrite (not_last a j) in B8 by (intros I; apply (SB j); auto; apply in_or_app; auto).
    simpl in B7, B8. repeat split; auto.
Qed.

(** Ancestors only disappear when a node is taken out. *)
Lemma spliced_out_anc : forall h h' p d a c b, spliced h h' p d a [c] b [] None None -> forall x i, anc h' x i -> anc h x i.
Proof.
  intros h h' p d a c b SP x i A. induction A. { constructor. }
  destruct (sp_inv h h' p d a [c] b [] None None SP _ _ H) as (m & M & _ & _ & P & _).
  rewrite H0 in P. destruct (mem i [c]); [discriminate|]. simpl in P. apply (anc_step h x i m p0); auto.
Qed.

Lemma remove_mid : forall a (c : id) b, NoDup (a ++ c :: b) -> remove_id c (a ++ c :: b) = a ++ b.
Proof.
  intros a c b ND. rewrite remove_id_app. apply NoDup_remove in ND. destruct ND as [N1 N2].
  rewrite remove_id_notin by (intros I; apply N2; apply in_or_app; auto). f_equal.
  cbn [remove_id filter]. rewrite Nat.eqb_refl. cbn [negb].
  change (remove_id c b = b). apply remove_id_notin. intros I; apply N2; apply in_or_app; auto.
Qed.


(** A parent that has children belongs to a living document. *)
Lemma parent_doc : forall h ch, wfT h ch -> wfO h ch -> forall p np, h p = Some np -> ~ spent np -> n_type np <> DOCTYPE ->
  exists d nd, n_owner np = Some d /\ h d = Some nd /\ n_type nd = DOCUMENT.
Proof.
  intros h ch WT WO p np Hp NS ND. destruct (n_owner np) as [d|] eqn:O.
  - destruct (wo_owner _ _ WO _ _ _ Hp O) as [(nd & A & B)|[A _]]; [|contradiction]. exists d, nd. auto.
  - destruct (wo_noowner _ _ WO _ _ Hp O). congruence.
Qed.

Lemma not_spent_parent : forall h ch, wfT h ch -> wfO h ch -> forall p np c, h p = Some np -> In c (ch p) -> ~ spent np.
Proof.
  intros h ch WT WO p np c Hp I S. assert (S' := S). destruct S' as (T & P & Q).
  destruct (n_owner np) as [d|] eqn:O.
  - destruct (wo_top _ _ WO p np d Hp Q) as [X|[_ X]]; try congruence. rewrite X in I. destruct I.
  - destruct (wo_noowner _ _ WO _ _ Hp O). congruence.
Qed.

Section Ops.
  Variables (s : st) (ch : id -> list id).
  Let h := s_heap s.
  Hypothesis WF : wf s ch.

  Lemma detach_wf0 : forall p c n, h c = Some n -> n_type n <> ATTRIBUTE -> n_parent n = Some p ->
    forall t, repr h t -> root t = c ->
    exists h' d nd a b, detach c s = Ok tt (withh (addlog s (log_removed p c t ++ [EvSubtree p])) h') /\
      h d = Some nd /\ n_type nd = DOCUMENT /\ n_owner n = Some d /\ ch p = a ++ c :: b /\
      spliced h h' p d a [c] b [] None None /\
      let ch' := fun j => without c (ch j) in
      wfL h' (s_nxt s) /\ wfT h' ch' /\ wfO h' ch' /\
      (forall i n', h' i = Some n' -> n_parent n' = None -> n_type n' <> DOCUMENT -> i = c \/ (n_ref n' > 0)%N) /\
      (forall i n', h' i = Some n' -> n_type n' = DOCUMENT -> (n_ref n' > 0)%N \/ (n_pend n' <> [] /\ ch' i = [])).
  Proof.
    intros p c n Hc TA PC t R Rt. destruct WF as (WL & WT & WO & WR).
    destruct (wt_parent _ _ WT _ _ _ Hc PC) as (np & Hp & Q & _). destruct (Q TA) as [IC PE].
    destruct (in_split _ _ IC) as (a & b & CH).
    assert (EO : n_owner n = n_owner np) by (eapply wo_child; eauto).
    pose proof (not_spent_parent _ _ WT WO _ _ _ Hp IC) as NS.
    destruct (parent_doc _ _ WT WO _ _ Hp NS) as (d & nd & Op & Hd & Td).
    { intros T. rewrite T in PE. discriminate. }
    pose proof (dt_spliced s ch p c d a b np n nd t WT WO CH Hp Hc Hd Td Rt) as SP.
    pose proof (detach_exec s ch p c d a b np n nd t WL WT WO CH Hp Hc Hd Op Td R Rt) as EX.
    fold h in SP, EX.
    set (h4 := hmod (hmod (hmod _ c (set_parent None)) c (set_prev None)) c (set_next None)) in *.
    exists h4, d, nd, a, b. split. { rewrite EX. unfold log_removed. reflexivity. }
    split; auto. split; auto. split; [congruence|]. split; auto. split; auto.
    assert (MO : mode h ch p [] None None) by constructor.
    assert (E : forall j, splice_ch ch p (a ++ [] ++ b) None j = without c (ch j)).
    { intros j. unfold splice_ch. rewrite without_eq. destruct (Nat.eqb_spec j p).
      - subst. rewrite CH, remove_mid; auto. rewrite <- CH. apply (wt_nodup _ _ WT).
      - simpl. symmetry. apply remove_id_notin. intros I. apply n0. eapply wt_disjoint; eauto. }
    assert (CH2 : ch p = a ++ [c] ++ b) by exact CH.
    assert (PERM : forall x, In x (@nil id) -> exists n0, h x = Some n0 /\ n_type n0 <> ATTRIBUTE /\ type_permitted (n_type np) (n_type n0) = true) by (intros x []).
    assert (ACY : forall x, In x (@nil id) -> ~ anc h x p) by (intros x []).
    assert (OI : forall x m, In x (@nil id) -> h x = Some m -> n_owner m = Some d \/ n_owner m = None) by (intros x m []).
    assert (OG : forall x m, None = Some x -> h x = Some m -> n_owner m = Some d \/ n_owner m = None) by (intros; discriminate).
    assert (G : let ch' := splice_ch ch p (a ++ [] ++ b) None in
      wfL h4 (s_nxt s) /\ wfT h4 ch' /\ wfO h4 ch' /\
      (forall i n', h4 i = Some n' -> n_parent n' = None -> n_type n' <> DOCUMENT -> i = c \/ (n_ref n' > 0)%N) /\
      (forall i n', h4 i = Some n' -> n_type n' = DOCUMENT -> (n_ref n' > 0)%N \/ (n_pend n' <> [] /\ ch' i = []))).
    { cbv zeta. split.
      - intros i m Hi. destruct (h i) eqn:Z. { eapply WL; eauto. } rewrite (sp_none _ _ _ _ _ _ _ _ _ _ SP _ Z) in Hi. discriminate.
      - split; [eapply splice_wfT; eauto|]. split; [eapply splice_wfO; eauto|].
        assert (RPD : n_type np = DOCUMENT -> (n_ref np > 0)%N).
        { intros T. destruct (wr_doc _ _ WR _ _ Hp T) as [X|[_ X]]; auto. rewrite X in IC. destruct IC. }
        destruct (splice_refs h h4 ch p d a [c] b [] None None np WT Hp MO SP PERM ACY WO Op NS OI OG WR RPD) as [Q1 Q2].
        split; auto. intros i n' A B C. destruct (Q1 _ _ A B C) as [[X|[]]|X]; auto. }
    cbv zeta in *. destruct G as (G1 & G2 & G3 & G4 & G5). split; auto.
    split; [eapply wfT_ch_ext; eauto|]. split; [eapply wfO_ch_ext; eauto|]. split; auto.
    intros i n' A B. rewrite <- E. eauto.
  Qed.

  Lemma detach_wf : forall p c n, h c = Some n -> n_type n <> ATTRIBUTE -> n_parent n = Some p -> (n_ref n > 0)%N ->
    forall t, repr h t -> root t = c ->
    exists h' d nd a b, detach c s = Ok tt (withh (addlog s (log_removed p c t ++ [EvSubtree p])) h') /\
      h d = Some nd /\ n_type nd = DOCUMENT /\ n_owner n = Some d /\ ch p = a ++ c :: b /\
      spliced h h' p d a [c] b [] None None /\
      wf (withh s h') (fun j => without c (ch j)).
  Proof.
    intros p c n Hc TA PC RC t R Rt.
    destruct (detach_wf0 p c n Hc TA PC t R Rt) as (h' & d & nd & a & b & E & Hd & Td & Od & CH & SP & WL' & WT' & WO' & R1 & R2).
    exists h', d, nd, a, b. do 6 (split; [auto|]). unfold wf. rewrite withh_heap, withh_nxt.
    split; [auto|]. split; [auto|]. split; [auto|]. constructor; auto.
    intros i n' A B C. destruct (R1 _ _ A B C) as [->|X]; auto.
    destruct (sp_data _ _ _ _ _ _ _ _ _ _ SP _ _ _ Hc A) as ((_ & _ & _ & _ & Q & _) & _). rewrite Q. auto.
  Qed.

  (** A spliced heap with nothing taken out, from [do_insert]. *)
  Lemma insert_wf : forall s1 ch1 p c d np nc nd a b ins f h',
    wf s1 ch1 -> s_heap s1 p = Some np -> s_heap s1 c = Some nc -> s_heap s1 d = Some nd ->
    n_type nd = DOCUMENT -> n_owner np = Some d -> ~ spent np -> ch1 p = a ++ b ->
    mode (s_heap s1) ch1 p ins f (Some c) ->
    (forall x, In x ins -> exists n, s_heap s1 x = Some n /\ type_permitted (n_type np) (n_type n) = true /\ ~ anc (s_heap s1) x p /\
        (n_owner n = Some d \/ n_owner n = None)) ->
    (n_owner nc = Some d \/ n_owner nc = None) ->
    (n_type np = DOCUMENT -> (n_ref np > 0)%N) ->
    spliced (s_heap s1) h' p d a [] b ins f (Some c) ->
    wf (withh s1 h') (splice_ch ch1 p (a ++ ins ++ b) f).
  Proof.
    intros s1 ch1 p c d np nc nd a b ins f h' (WL & WT & WO & WR) Hp Hc Hd Td Op NS CH MO IN OC RP SP.
    assert (CH2 : ch1 p = a ++ [] ++ b) by exact CH.
    assert (PERM : forall x, In x ins -> exists n0, s_heap s1 x = Some n0 /\ n_type n0 <> ATTRIBUTE /\ type_permitted (n_type np) (n_type n0) = true).
    { intros x I. destruct (IN _ I) as (n & A & B & C & D). exists n. split; auto. split; auto.
      intros T. rewrite T in B. destruct (n_type np); discriminate. }
    assert (ACY : forall x, In x ins -> ~ anc (s_heap s1) x p) by (intros x I; destruct (IN _ I) as (n & A & B & C & D); auto).
    assert (OI : forall x m, In x ins -> s_heap s1 x = Some m -> n_owner m = Some d \/ n_owner m = None).
    { intros x m I Hx. destruct (IN _ I) as (n & A & B & C & D). assert (n = m) by congruence; subst; auto. }
    assert (OG : forall x m, Some c = Some x -> s_heap s1 x = Some m -> n_owner m = Some d \/ n_owner m = None).
    { intros x m E Hx. inversion E; subst. assert (m = nc) by congruence; subst; auto. }
    unfold wf. rewrite withh_heap, withh_nxt. split.
    - intros i m Hi. destruct (s_heap s1 i) eqn:Z. { eapply WL; eauto. } rewrite (sp_none _ _ _ _ _ _ _ _ _ _ SP _ Z) in Hi. discriminate.
    - split; [|split].
      + eapply splice_wfT; eauto.
      + eapply splice_wfO; eauto.
      + eapply splice_wfR; eauto. intros x m [].
  Qed.
End Ops.

Lemma edited_refl_up : forall h c n, h c = Some n -> no_wrap n -> forall g, edited h (hmod h c ref_up) g c.
Proof.
  intros h c n Hc NW g. constructor.
  - intros j H. apply hmod_none; auto.
  - intros j m H. eexists. split; [eapply hmod_get; eauto|].
    destruct (Nat.eqb_spec j c); [|repeat split; auto].
    subst. assert (m = n) by congruence; subst. rewrite ref_up_val by auto. repeat split; auto.
Qed.

Lemma edited_spliced : forall h h' p d a out b ins f gone c n, spliced h h' p d a out b ins f gone ->
  (forall x m, In x ins -> h x = Some m -> n_owner m = Some d \/ n_owner m = None) ->
  h c = Some n -> no_wrap n -> edited h (hmod h' c ref_up) gone c.
Proof.
  intros h h' p d a out b ins f gone c n SP OI Hc NW. constructor.
  - intros j H. apply hmod_none. eapply sp_none; eauto.
  - intros j m H. destruct (sp_some _ _ _ _ _ _ _ _ _ _ SP _ _ H) as (m' & A & B1 & B2 & B3 & B4 & B5 & B6 & B7 & B8 & B9).
    destruct (sp_data _ _ _ _ _ _ _ _ _ _ SP _ _ _ H A) as ((D1 & D2 & D3 & D4 & D5 & D6 & D7) & _).
    eexists. split; [eapply hmod_get; eauto|].
    assert (OW : n_owner m' = n_owner m \/ n_owner m = None).
    { rewrite B7. destruct (mem j ins) eqn:M; auto. apply mem_in in M. destruct (OI _ _ M H) as [X|X]; rewrite X; auto. }
    assert (PE : n_pending m = true -> n_pending m' = true \/ gone = Some j).
    { intros PM. rewrite B8. destruct (mem j out); auto. destruct (oid_eqb gone (Some j)) eqn:GG; auto. apply oid_eqb_eq in GG; auto. }
    destruct (Nat.eqb_spec j c); [|repeat split; auto].
    subst. assert (m = n) by congruence; subst. rewrite ref_up_val; [|unfold no_wrap in *; congruence].
    rewrite D5. repeat split; auto.
Qed.

Lemma edited_trans0 : forall h h1 h2 p d a c0 b g c, spliced h h1 p d a [c0] b [] None None -> edited h1 h2 g c -> edited h h2 g c.
Proof.
  intros h h1 h2 p d a c0 b g c SP E. constructor.
  - intros j H. eapply ed_none; eauto. eapply sp_none; eauto.
  - intros j m H. destruct (sp_some _ _ _ _ _ _ _ _ _ _ SP _ _ H) as (m' & A & B1 & B2 & B3 & B4 & B5 & B6 & B7 & B8 & B9).
    destruct (sp_data _ _ _ _ _ _ _ _ _ _ SP _ _ _ H A) as ((D1 & D2 & D3 & D4 & D5 & D6 & D7) & _).
    destruct (ed_some _ _ _ _ E _ _ A) as (m2 & F & F1 & F2 & F3 & F4 & F5 & F6 & F7 & F8 & F9 & F10 & F11).
    simpl in B7. exists m2. rewrite D5 in F9. split; auto.
    do 8 (split; [congruence|]). split; [auto|]. split; [rewrite B7 in F10; exact F10|].
    intros PM. apply F11. rewrite B8. simpl oid_eqb. cbv iota. destruct (mem j [c0]); auto.
Qed.

Section InsertBefore.
  Variables (s : st) (ch : id -> list id) (p c : id) (r : option id).
  Let h := s_heap s.
  Hypothesis WF : wf s ch.
  Hypothesis Up : usable h p.
  Hypothesis Uc : usable h c.
  Hypothesis Lr : forall i, r = Some i -> exists n, h i = Some n /\ n_type n <> ATTRIBUTE.
  Hypothesis Rc : held h c.
  Hypothesis Rp : forall np, h p = Some np -> n_type np = DOCUMENT -> (n_ref np > 0)%N.

  (** The fragment is turned down after it has left its document's pending list. *)
  Definition frag_rejected : Prop :=
    type_of h c = Some FRAGMENT /\ exists x, In x (ch c) /\ ~ may_nest h p x.

  Lemma insert_before_any : forall t, repr h t -> root t = c ->
    exists o, first_failure (insert_checks h p c r) o /\
    match o with
    | Some e => insert_before p c r s = Exc e s
    | None =>
        (frag_rejected /\ exists h1 d, insert_before p c r s = Exc HIERARCHY_REQUEST_ERR (withh s h1) /\ unpended h h1 d (Some c)) \/
        (~ frag_rejected /\ exists h', insert_before p c r s = Ok c (withh (addlog s (insert_log h p c r t)) h') /\
           wf (withh s h') (inserted h ch p c r) /\ edited h h' (Some c) c)
    end.
  Proof.
    intros t Rt Et. destruct Up as (np & Hp & NSp). destruct Uc as (nc & Hc & NSc).
    assert (Rc1 : (n_ref nc > 0)%N /\ no_wrap nc).
    { destruct Rc as (m & A & B & C). assert (m = nc) by congruence; subst; auto. } destruct Rc1 as [RC NW].
    assert (RP : n_type np = DOCUMENT -> (n_ref np > 0)%N) by (apply Rp; auto).
    destruct WF as (WL & WT & WO & WR). fold h in WL, WT, WO, WR.
    unfold insert_before. step (load_ok s p np Hp). step (load_ok s c nc Hc).
    set (wrong := if ntype_eqb (n_type nc) DOCTYPE then _ else _).
    assert (WD : wrong = true <-> wrong_document h p c).
    { unfold wrong, wrong_document, owner_of, type_of. rewrite Hp, Hc. cbn [option_map].
      destruct (ntype_eqb (n_type nc) DOCTYPE) eqn:ET.
      - apply ntype_eqb_eq in ET. rewrite ET. rewrite andb_true_iff, !negb_true_iff, oid_eqb_neq.
        destruct (n_owner nc); simpl; split; intros [X Y]; split; try congruence; try tauto; intros [Q1 Q2]; congruence.
      - apply ntype_eqb_neq in ET. rewrite negb_true_iff, oid_eqb_neq. split; [|tauto]. intros X. split; auto. intros [Y _]; congruence. }
    unfold insert_checks.
    destruct wrong. { exists (Some WRONG_DOCUMENT_ERR). split; [constructor; apply WD; auto|reflexivity]. }
    assert (NWD : ~ wrong_document h p c) by (intros X; apply WD in X; discriminate). clear WD.
    cbn [negb check]. rewrite bind_ret.
    assert (Lp : live h p) by (exists np; auto). assert (Lc : live h c) by (exists nc; auto).
    destruct (readonly_ok s ch WL WT p Lp) as (ro & ERO & BRO). step ERO.
    destruct ro. { exists (Some NO_MODIFICATION_ALLOWED_ERR). split; [|reflexivity]. apply ff_skip; auto. constructor. apply BRO; auto. }
    assert (NRO : ~ read_only h p) by (intros X; apply BRO in X; discriminate). clear BRO ERO.
    cbn [negb check]. rewrite bind_ret.
    assert (REF : (exists i, r = Some i /\ parent_of h i <> Some p /\
                     (match r with None => ret tt | Some r0 => nr <- load r0 ;; check (oid_eqb (n_parent nr) (Some p)) NOT_FOUND_ERR end) s = Exc NOT_FOUND_ERR s) \/
                  ((match r with None => ret tt | Some r0 => nr <- load r0 ;; check (oid_eqb (n_parent nr) (Some p)) NOT_FOUND_ERR end) s = Ok tt s /\
                     forall i, r = Some i -> In i (ch p))).
    { destruct r as [i|]. 2:{ right. split; auto. intros; discriminate. }
      destruct (Lr i eq_refl) as (ni & Hi & Ti). step (load_ok s i ni Hi).
      destruct (oid_eqb (n_parent ni) (Some p)) eqn:E.
      - right. split; auto. intros j J. inversion J; subst j. apply oid_eqb_eq in E.
        destruct (wt_parent _ _ WT _ _ _ Hi E) as (m & _ & Q & _). apply Q; auto.
      - left. exists i. split; auto. split; auto. apply oid_eqb_neq in E. unfold parent_of. rewrite Hi. auto. }
    destruct REF as [(i & E1 & E2 & E3)|[E3 RIN]].
    { exists (Some NOT_FOUND_ERR). split.
      - apply ff_skip; auto. apply ff_skip; auto. constructor. eauto.
      - apply bind_exc. auto. }
    step E3. clear E3.
    assert (NRF : ~ exists i, r = Some i /\ parent_of h i <> Some p).
    { intros (i & E1 & E2). specialize (RIN _ E1). destruct (wt_child _ _ WT _ _ RIN) as (m & _ & A & _ & _ & B & _).
      apply E2. unfold parent_of. rewrite A. auto. }
    destruct (ancestor_check_ok s ch WL WT c p Lp) as (an & EAN & BAN). step EAN.
    destruct an. { exists (Some HIERARCHY_REQUEST_ERR). split; [|reflexivity]. do 3 (apply ff_skip; auto). constructor. apply BAN; auto. }
    assert (NAN : ~ anc h c p) by (intros X; apply BAN in X; discriminate). clear BAN EAN.
    cbn [negb check]. rewrite bind_ret.
    assert (PER : (type_of h c <> Some FRAGMENT /\ ~ may_nest h p c /\
                     (if ntype_eqb (n_type nc) FRAGMENT then ret tt else b <- permitted_child p c;; check b HIERARCHY_REQUEST_ERR) s = Exc HIERARCHY_REQUEST_ERR s) \/
                  ((if ntype_eqb (n_type nc) FRAGMENT then ret tt else b <- permitted_child p c;; check b HIERARCHY_REQUEST_ERR) s = Ok tt s /\
                    (n_type nc <> FRAGMENT -> may_nest h p c))).
    { destruct (ntype_eqb (n_type nc) FRAGMENT) eqn:E.
      - right. split; auto. apply ntype_eqb_eq in E. congruence.
      - apply ntype_eqb_neq in E. destruct (permitted_child_ok s ch WL WT p c Lp Lc) as (b & EB & BB). step EB.
        destruct b.
        + right. split; auto. intros _. apply (may_nest_iff s ch); auto. apply BB; auto.
        + left. split. { unfold type_of. rewrite Hc. simpl. congruence. } split; auto.
          intros X. apply (may_nest_iff s ch) in X; auto. apply BB in X. discriminate. }
    destruct PER as [(E1 & E2 & E3)|[E3 MN]].
    { exists (Some HIERARCHY_REQUEST_ERR). split; [do 4 (apply ff_skip; auto); constructor; auto|apply bind_exc; auto]. }
    step E3. clear E3.
    assert (NPE : ~ (type_of h c <> Some FRAGMENT /\ ~ may_nest h p c)).
    { unfold type_of. rewrite Hc. simpl. intros [X Y]. apply Y. apply MN. congruence. }
    assert (ER : oid_eqb (Some c) r = oid_eqb r (Some c)).
    { destruct r; simpl; auto. apply Nat.eqb_sym. }
    rewrite ER. unfold insert_log, inserted. destruct (oid_eqb r (Some c)) eqn:EC.
    { (* inserting a node before itself *)
      apply oid_eqb_eq in EC. exists None. split.
      - do 5 (apply ff_skip; auto). apply ff_skip; [|constructor]. intros [X _]. congruence.
      - right. assert (TF : n_type nc <> FRAGMENT).
        { specialize (RIN _ EC). destruct (wt_child _ _ WT _ _ RIN) as (m & mp & A & B & C & D & E).
          assert (m = nc) by congruence. subst. intros X. rewrite X in E. destruct (n_type mp); discriminate. }
        split. { intros [X _]. unfold type_of in X. rewrite Hc in X. simpl in X. congruence. }
        exists (hmod h c ref_up). split; [|split].
        + erewrite bind_ok by (eapply node_ref_ok; eauto). rewrite addlog_nil. reflexivity.
        + apply (ref_up_wf s ch c nc); auto.
        + eapply edited_refl_up; eauto. }
    assert (RNC : r <> Some c) by (apply oid_eqb_neq; auto).
    (* the parent is editable and has a document *)
    assert (TP : n_type np <> DOCTYPE).
    { intros X. apply NRO. exists np. split; auto. }
    destruct (parent_doc _ _ WT WO _ _ Hp NSp TP) as (d & nd & Op & Hd & Td).
    assert (OC : n_owner nc = Some d \/ (n_type nc = DOCTYPE /\ n_owner nc = None)).
    { unfold wrong_document, owner_of, type_of in NWD. rewrite Hp, Hc in NWD. simpl in NWD. rewrite Op in NWD.
      destruct (n_owner nc) as [d'|] eqn:E.
      - left. destruct (Nat.eq_dec d d'); [congruence|]. exfalso. apply NWD. split; [congruence|]. intros [_ X]; discriminate.
      - right. split; auto. apply (wo_noowner _ _ WO _ _ Hc E). }
    assert (NDc : n_type nc <> DOCUMENT).
    { intros X. destruct (MN) as (np' & nc' & A & B & C & _). { congruence. }
      assert (nc' = nc) by congruence; subst. apply nests_iff in C. rewrite X in C. destruct (n_type np'); discriminate. }
    destruct (n_parent nc) as [q|] eqn:PC.
    - (* the node moves *)
      assert (TF : n_type nc <> FRAGMENT /\ n_type nc <> ATTRIBUTE /\ type_permitted (n_type np) (n_type nc) = true).
      { assert (TF : n_type nc <> FRAGMENT).
        { intros X. destruct (wt_parent _ _ WT _ _ _ Hc PC) as (nq & A & B & _). destruct B as [_ B]. { congruence. }
          rewrite X in B. destruct (n_type nq); discriminate. }
        split; auto. destruct (MN TF) as (np' & nc' & A & B & C & _).
        assert (np' = np) by congruence. assert (nc' = nc) by congruence. subst. apply nests_iff in C. split; auto.
        intros X. rewrite X in C. destruct (n_type np); discriminate. }
      destruct TF as (TF & TA & TPC).
      assert (Lq : live h q). { destruct (wt_parent _ _ WT _ _ _ Hc PC) as (nq & A & _). exists nq; auto. }
      destruct (readonly_ok s ch WL WT q Lq) as (roq & EQ & BQ).
      destruct roq.
      { exists (Some NO_MODIFICATION_ALLOWED_ERR). split.
        - do 5 (apply ff_skip; auto). constructor. split; auto. exists q. split; [unfold parent_of; rewrite Hc; auto|apply BQ; auto].
        - apply bind_exc. step EQ. reflexivity. }
      exists None. split.
      { do 5 (apply ff_skip; auto). apply ff_skip; [|constructor]. intros [_ (q' & X & Y)]. unfold parent_of in X. rewrite Hc in X.
        assert (q' = q) by congruence. subst. apply BQ in Y. discriminate. }
      right. split. { intros [X _]. unfold type_of in X. rewrite Hc in X. simpl in X. congruence. }
      destruct (detach_wf s ch WF q c nc Hc TA PC RC t Rt Et) as (h4 & d2 & nd2 & a0 & b0 & DE & Hd2 & Td2 & Od2 & CQ & SP & WF1).
      assert (d2 = d). { destruct OC as [OC|[_ OC]]; congruence. } subst d2.
      set (s1 := withh (addlog s (log_removed q c t ++ [EvSubtree q])) h4) in *.
      set (ch1 := fun j => without c (ch j)) in *.
      assert (WFs1 : wf s1 ch1) by exact WF1. assert (WFs1' := WFs1). destruct WFs1' as (WL1 & WT1 & WO1 & WR1).
      destruct (sp_some _ _ _ _ _ _ _ _ _ _ SP _ _ Hp) as (np1 & Hp1 & P1 & P2 & P3 & P4 & P5 & P6 & P7 & P8 & P9).
      destruct (sp_some _ _ _ _ _ _ _ _ _ _ SP _ _ Hc) as (nc1 & Hc1 & C1 & C2 & C3 & C4 & C5 & C6 & C7 & C8 & C9).
      destruct (sp_some _ _ _ _ _ _ _ _ _ _ SP _ _ Hd) as (nd1 & Hd1 & D1 & _).
      destruct (sp_data _ _ _ _ _ _ _ _ _ _ SP _ _ _ Hp Hp1) as ((_ & _ & _ & _ & PR & _) & _).
      destruct (sp_data _ _ _ _ _ _ _ _ _ _ SP _ _ _ Hc Hc1) as ((_ & _ & _ & _ & CR & _) & _).
      assert (MC : mem c [c] = true) by (apply mem_in; left; auto). rewrite MC in *. simpl in C7, P7.
      assert (NPC : p <> c) by (intros ->; apply NAN; constructor).
      assert (MP : mem p [c] = false) by (apply mem_notin; intros [X|[]]; congruence). rewrite MP in *. simpl in P3, P8.
      destruct (insert_at_split r (ch1 p)) as (a & b & CH1 & HB & IA).
      { intros i I. unfold ch1. rewrite without_eq. apply remove_id_in. split; auto. congruence. }
      assert (R1 : repr (s_heap s1) t). { exact (repr_spliced_out h h4 ch q d a0 c b0 t nd WT WO CQ Hd Td SP Rt Et). }
      assert (NAN1 : ~ anc (s_heap s1) c p) by (intros X; apply NAN; eapply spliced_out_anc; eauto).
      assert (OC1 : n_owner nc1 = Some d \/ n_owner nc1 = None) by (left; destruct OC as [OC|[_ OC]]; congruence).
      destruct (do_insert_one s1 ch1 p c d a b np1 nc1 nd1 WL1 WT1 WO1 CH1 Hp1 Hc1 Hd1) with (t := t) as (h' & SP2 & EX2); auto.
      1: congruence.
      { unfold spent. rewrite C1. intuition. }
      1: congruence.
      { left; destruct OC as [OC|[_ OC]]; congruence. }
      1, 2: congruence.
      exists (hmod h' c ref_up). split; [|split].
      + rewrite (bind_ok _ _ _ _ _ _ tt s1). 2:{ step EQ. exact DE. }
        rewrite <- HB, EX2. unfold type_of, parent_of. rewrite Hc, PC. cbn [option_map].
        unfold s1, addlog, withh. cbn [s_log s_heap s_nxt]. f_equal. f_equal.
        destruct (n_type nc); try congruence; rewrite <- !app_assoc; reflexivity.
      + assert (W2 : wf (withh s1 h') (splice_ch ch1 p (a ++ [c] ++ b) None)).
        { eapply insert_wf with (np := np1) (nc := nc1) (nd := nd1); eauto.
          - congruence.
          - congruence.
          - unfold spent in *. rewrite P1, P8, P3. exact NSp.
          - apply (ModeOne _ _ _ c nc1); auto.
          - intros x [<-|[]]. exists nc1. repeat split; auto. congruence.
          - intros TD. rewrite PR. apply RP. congruence. }
        apply wf_ch_ext with (ch := splice_ch ch1 p (a ++ [c] ++ b) None).
        { intros j. unfold splice_ch, type_of. rewrite Hc. cbn [option_map]. rewrite <- IA. unfold ch1.
          destruct (n_type nc); try congruence; destruct (Nat.eqb j p); auto. }
        destruct (sp_some _ _ _ _ _ _ _ _ _ _ SP2 _ _ Hc1) as (nc2 & Hc2 & _).
        destruct (sp_data _ _ _ _ _ _ _ _ _ _ SP2 _ _ _ Hc1 Hc2) as ((_ & _ & _ & _ & CR2 & _) & _).
        apply (ref_up_wf (withh s1 h') _ c nc2); auto. unfold no_wrap in *. congruence.
      + eapply edited_trans0; eauto. eapply edited_spliced; eauto.
        * intros x m [<-|[]] Hx. assert (m = nc1) by congruence; subst. auto.
        * unfold no_wrap in *. congruence.
    - (* the node has no parent *)
      rewrite bind_ret. exists None. split.
      { do 5 (apply ff_skip; auto). apply ff_skip; [|constructor]. intros [_ (q' & X & _)]. unfold parent_of in X. rewrite Hc in X. congruence. }
      destruct (insert_at_split r (ch p) RIN) as (a & b & CH & HB & IA).
      assert (OC1 : n_owner nc = Some d \/ n_owner nc = None) by tauto.
      destruct (ntype_eqb (n_type nc) FRAGMENT) eqn:TF.
      + (* a fragment *)
        apply ntype_eqb_eq in TF.
        assert (KT : map root (kids t) = ch c /\ Forall (repr h) (kids t)).
        { destruct t as [i ats ks]. simpl in Et. subst i. destruct (repr_inv _ _ _ _ Rt) as (m & Hm & KS & _ & _ & SG & _ & _ & _ & RK).
          split; auto. cbn [kids]. destruct (wt_ends _ _ WT _ _ Hm) as [EF _]. rewrite EF in KS.
          eapply fwd_det; [eapply seg_fwd; exact SG|]. rewrite <- KS. eapply seg_fwd. apply (wt_seg _ _ WT). }
        destruct KT as [KT FR].
        assert (DEC : (forall x, In x (ch c) -> permitted s ch p x) \/ (exists x, In x (ch c) /\ ~ permitted s ch p x)).
        { assert (LV : forall x, In x (ch c) -> live h x).
          { intros x I. destruct (wt_child _ _ WT _ _ I) as (m & _ & A & _). exists m; auto. }
          clear - LV WL WT Lp. induction (ch c) as [|x l].
          - left; intros x [].
          - destruct (permitted_child_ok s ch WL WT p x Lp) as (v & _ & V). { apply LV; left; auto. }
            destruct v.
            + destruct IHl as [A|(y & A & B)].
              * intros y I; apply LV; right; auto.
              * left. intros y [<-|I]; auto. apply V; auto.
              * right. exists y. split; auto. right; auto.
            + right. exists x. split; [left; auto|]. intros X. apply V in X. discriminate. }
        destruct DEC as [AP|(x & IX & NX)].
        * right. split. { intros (_ & x & I & N). apply N. apply (may_nest_iff s ch); auto. }
          destruct (do_insert_frag s ch p c d a b np nc nd WL WT WO CH Hp Hc Hd) with (ts := kids t) as (h' & SP2 & EX2); auto.
          exists (hmod h' c ref_up). split; [|split].
          -- rewrite <- HB, EX2. unfold type_of. rewrite Hc. cbn [option_map]. rewrite TF.
             f_equal. rewrite <- KT. destruct (kids t); reflexivity.
          -- assert (NE : c <> p) by (intros ->; apply NAN; constructor).
             assert (W2 : wf (withh s h') (splice_ch ch p (a ++ ch c ++ b) (Some c))).
             { eapply insert_wf with (np := np) (nc := nc) (nd := nd); eauto.
               - apply (ModeFrag _ _ _ c nc); auto.
               - intros x I. destruct (wt_child _ _ WT _ _ I) as (m & mp & A & B & C & D & E).
                 destruct (AP _ I) as (np' & n' & F1 & F2 & F3 & _). fold h in F1, F2. assert (np' = np) by congruence. assert (n' = m) by congruence. subst.
                 exists m. split; auto. split; auto. split.
                 + intros X. apply NAN. eapply anc_trans; [|exact X]. econstructor; eauto. constructor.
                 + assert (mp = nc) by congruence. subst. rewrite (wo_child _ _ WO _ _ _ _ A D Hc). auto. }
             apply wf_ch_ext with (ch := splice_ch ch p (a ++ ch c ++ b) (Some c)).
             { intros j. unfold splice_ch, type_of. rewrite Hc. cbn [option_map]. rewrite TF, <- IA.
               destruct (Nat.eqb j p); auto. simpl oid_eqb. rewrite Nat.eqb_sym. reflexivity. }
             destruct (sp_some _ _ _ _ _ _ _ _ _ _ SP2 _ _ Hc) as (nc2 & Hc2 & _).
             destruct (sp_data _ _ _ _ _ _ _ _ _ _ SP2 _ _ _ Hc Hc2) as ((_ & _ & _ & _ & CR2 & _) & _).
             apply (ref_up_wf (withh s h') _ c nc2); auto. unfold no_wrap in *. congruence.
          -- eapply edited_spliced; eauto.
             intros x m I Hx. destruct (wt_child _ _ WT _ _ I) as (m' & mp & A & B & C & D & E).
             assert (mp = nc) by congruence. assert (m' = m) by congruence. subst. rewrite (wo_child _ _ WO _ _ _ _ A D Hc). auto.
        * left. assert (NX' : ~ may_nest h p x) by (intros X; apply NX; apply (may_nest_iff s ch) in X; auto).
          split. { split; [unfold type_of; rewrite Hc; simpl; congruence|]. exists x. auto. }
          destruct (do_insert_rejected s ch p c d b np nc nd WL WT WO Hp Hc Hd) as (h1 & U & EX); auto.
          exists h1, d. split; auto. rewrite <- HB. exact EX.
      + apply ntype_eqb_neq in TF. right.
        split. { intros [X _]. unfold type_of in X. rewrite Hc in X. simpl in X. congruence. }
        assert (TPC : type_permitted (n_type np) (n_type nc) = true).
        { destruct (MN TF) as (np' & nc' & A & B & C & _).
          assert (np' = np) by congruence. assert (nc' = nc) by congruence. subst. apply nests_iff in C. auto. }
        destruct (do_insert_one s ch p c d a b np nc nd WL WT WO CH Hp Hc Hd) with (t := t) as (h' & SP2 & EX2); auto.
        exists (hmod h' c ref_up). split; [|split].
        * rewrite <- HB, EX2. unfold type_of, parent_of. rewrite Hc, PC. cbn [option_map].
          destruct (n_type nc); try congruence; reflexivity.
        * assert (W2 : wf (withh s h') (splice_ch ch p (a ++ [c] ++ b) None)).
          { eapply insert_wf with (np := np) (nc := nc) (nd := nd); eauto.
            - apply (ModeOne _ _ _ c nc); auto.
            - intros x [<-|[]]. exists nc. repeat split; auto. }
          assert (NIN : forall j, without c (ch j) = ch j).
          { intros j. rewrite without_eq. apply remove_id_notin. intros I.
            destruct (wt_child _ _ WT _ _ I) as (m & mp & A & B & C & D & E). congruence. }
          apply wf_ch_ext with (ch := splice_ch ch p (a ++ [c] ++ b) None).
          { intros j. unfold splice_ch, type_of. rewrite Hc. cbn [option_map]. rewrite !NIN. rewrite <- IA.
            destruct (n_type nc); try congruence; destruct (Nat.eqb j p); auto. }
          destruct (sp_some _ _ _ _ _ _ _ _ _ _ SP2 _ _ Hc) as (nc2 & Hc2 & _).
          destruct (sp_data _ _ _ _ _ _ _ _ _ _ SP2 _ _ _ Hc Hc2) as ((_ & _ & _ & _ & CR2 & _) & _).
          apply (ref_up_wf (withh s h') _ c nc2); auto. unfold no_wrap in *. congruence.
        * eapply edited_spliced; eauto.
          intros x m [<-|[]] Hx. assert (m = nc) by congruence; subst. auto.
  Qed.
End InsertBefore.

Lemma insert_before_spec : forall s ch p c r, wf s ch -> usable (s_heap s) p -> usable (s_heap s) c ->
  (forall i, r = Some i -> exists n, s_heap s i = Some n /\ n_type n <> ATTRIBUTE) -> held (s_heap s) c -> held (s_heap s) p ->
  forall t, repr (s_heap s) t -> root t = c ->
  exists o, first_failure (insert_checks (s_heap s) p c r) o /\
  match o with
  | Some e => insert_before p c r s = Exc e s
  | None =>
      (frag_rejected s ch p c /\ exists h1 d, insert_before p c r s = Exc HIERARCHY_REQUEST_ERR (withh s h1) /\ unpended (s_heap s) h1 d (Some c)) \/
      (~ frag_rejected s ch p c /\ exists h', insert_before p c r s = Ok c (withh (addlog s (insert_log (s_heap s) p c r t)) h') /\
         wf (withh s h') (inserted (s_heap s) ch p c r) /\ edited (s_heap s) h' (Some c) c)
  end.
Proof.
  intros s ch p c r W Up Uc Lr Rc (m & A & B & C) t Rt Et. apply insert_before_any; auto. intros np H _. congruence.
Qed.

