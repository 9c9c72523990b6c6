(** replaceChild as a whole. *)
From Coq Require Import List Arith NArith Bool Lia ZifyBool ZifyNat ZifyN.
From Verif Require Import Base HeapModel HeapSpec HeapInv HeapExec HeapTree HeapSplice HeapLoops HeapEdit HeapAttach HeapInsert HeapFrame HeapOps HeapReplace.
Import ListNotations.
Local Open Scope dom_scope.

Definition replaced (h : heap) (ch : id -> list id) (p c old : id) (j : id) : list id :=
  if Nat.eqb c old then ch j
  else match type_of h c with
       | Some FRAGMENT => if Nat.eqb j p then subst_at old (ch c) (ch p) else if Nat.eqb j c then [] else ch j
       | _ => if Nat.eqb j p then subst_at old [c] (without c (ch p)) else without c (ch j)
       end.

Definition replace_log (h : heap) (c old : id) (t : rose) : list event :=
  if Nat.eqb c old then []
  else match parent_of h c with
       | Some q => log_removed q c t ++ [EvSubtree q]
       | None => []
       end.

Lemma subst_at_split : forall o l, In o l -> exists a b, l = a ++ o :: b /\ forall xs, subst_at o xs l = a ++ xs ++ b.
Proof.
  induction l as [|y l]; intros I. { destruct I. }
  cbn [subst_at]. destruct (Nat.eqb_spec y o).
  - subst. exists [], l. split; auto.
  - destruct I as [->|I]; [congruence|]. destruct (IHl I) as (a & b & E & F). exists (y :: a), b. split; [simpl; congruence|].
    intros xs. rewrite F. reflexivity.
Qed.

(** The invariant after a replacement, the reference of the old child included. *)
Lemma replace_wf : forall s1 ch1 p c d old np nc nd no a b ins f hF h',
    wf s1 ch1 -> s_heap s1 p = Some np -> s_heap s1 c = Some nc -> s_heap s1 d = Some nd -> s_heap s1 old = Some no ->
    n_type nd = DOCUMENT -> n_owner np = Some d -> ~ spent np -> ch1 p = a ++ old :: b ->
    mode (s_heap s1) ch1 p ins f (Some c) ->
    (forall x, In x ins -> exists n, s_heap s1 x = Some n /\ type_permitted (n_type np) (n_type n) = true /\ ~ anc (s_heap s1) x p /\
        (n_owner n = Some d \/ n_owner n = None)) ->
    n_owner nc = Some d ->
    (n_type np = DOCUMENT -> (n_ref np > 0)%N) -> no_wrap no ->
    spliced (s_heap s1) hF p d a [old] b ins f (Some c) ->
    (forall j, h' j = hmod hF old ref_up j) ->
    wf (withh s1 h') (splice_ch ch1 p (a ++ ins ++ b) f).
Proof.
  intros s1 ch1 p c d old np nc nd no a b ins f hF h' (WL & WT & WO & WR) Hp Hc Hd Ho Td Op NS CH MO IN OC RP NW SP EQ.
  assert (CH2 : ch1 p = a ++ [old] ++ b) by exact CH.
  assert (PERM : forall x, In x ins -> exists n0, s_heap s1 x = Some n0 /\ n_type n0 <> ATTRIBUTE /\ type_permitted (n_type np) (n_type n0) = true).
  { intros x I. destruct (IN _ I) as (n & A & B & C & D). exists n. split; auto. split; auto.
    intros T. rewrite T in B. destruct (n_type np); discriminate. }
  assert (ACY : forall x, In x ins -> ~ anc (s_heap s1) x p) by (intros x I; destruct (IN _ I) as (n & A & B & C & D); auto).
  assert (OI : forall x m, In x ins -> s_heap s1 x = Some m -> n_owner m = Some d \/ n_owner m = None).
  { intros x m I Hx. destruct (IN _ I) as (n & A & B & C & D). assert (n = m) by congruence; subst; auto. }
  assert (OG : forall x m, Some c = Some x -> s_heap s1 x = Some m -> n_owner m = Some d \/ n_owner m = None).
  { intros x m E Hx. inversion E; subst. assert (m = nc) by congruence; subst; auto. }
  assert (SS : same_struct hF h').
  { split.
    - intros j H. rewrite EQ. apply hmod_none; auto.
    - intros j n H. exists (if Nat.eqb j old then ref_up n else n). split; [rewrite EQ; apply hmod_get; auto|].
      destruct (Nat.eqb j old); [apply struct_eq_ref_up|]. repeat split. }
  assert (WLF : wfL hF (s_nxt s1)).
  { intros i m Hi. destruct (s_heap s1 i) eqn:Z. { eapply WL; eauto. } rewrite (sp_none _ _ _ _ _ _ _ _ _ _ SP _ Z) in Hi. discriminate. }
  assert (WTF : wfT hF (splice_ch ch1 p (a ++ ins ++ b) f)) by (eapply splice_wfT; eauto).
  assert (WOF : wfO hF (splice_ch ch1 p (a ++ ins ++ b) f)) by (eapply splice_wfO; eauto).
  unfold wf. rewrite withh_heap, withh_nxt. split; [|split; [|split]].
  - eapply same_wfL; eauto.
  - eapply same_wfT; eauto.
  - eapply same_wfO; eauto.
  - destruct (splice_refs (s_heap s1) hF ch1 p d a [old] b ins f (Some c) np WT Hp MO SP PERM ACY WO Op NS OI OG WR RP) as [R1 R2].
    assert (RF : forall j m, hF j = Some m -> h' j = Some (if Nat.eqb j old then ref_up m else m)) by (intros; rewrite EQ; apply hmod_get; auto).
    assert (INV : forall j m', h' j = Some m' -> exists m, hF j = Some m /\ m' = if Nat.eqb j old then ref_up m else m).
    { intros j m' H. destruct (hF j) as [m|] eqn:E; [|rewrite (proj1 SS _ E) in H; discriminate].
      exists m. split; auto. rewrite (RF _ _ E) in H. congruence. }
    assert (NO : forall m, hF old = Some m -> n_ref m = n_ref no /\ n_type m = n_type no).
    { intros m Hm. destruct (sp_data _ _ _ _ _ _ _ _ _ _ SP _ _ _ Ho Hm) as [(_ & _ & _ & _ & Q & _) _].
      destruct (sp_some _ _ _ _ _ _ _ _ _ _ SP _ _ Ho) as (m2 & A & B & _). assert (m2 = m) by congruence; subst. auto. }
    assert (UP : forall m, hF old = Some m -> (n_ref (ref_up m) > 0)%N).
    { intros m Hm. destruct (NO _ Hm) as [Q _]. rewrite ref_up_val. { lia. } unfold no_wrap in *. congruence. }
    constructor.
    + intros i m' Hi P T. destruct (INV _ _ Hi) as (m & A & ->).
      destruct (Nat.eqb_spec i old). { subst. auto. }
      destruct (R1 _ _ A P T) as [[I|[]]|]; auto. congruence.
    + intros i m' Hi T. destruct (INV _ _ Hi) as (m & A & ->).
      destruct (Nat.eqb_spec i old). { subst. left; auto. }
      apply R2; auto.
Qed.

Lemma edited_replaced : forall h hF h' p d a old b ins f gone no, spliced h hF p d a [old] b ins f gone ->
  (forall x m, In x ins -> h x = Some m -> n_owner m = Some d \/ n_owner m = None) ->
  h old = Some no -> no_wrap no -> (forall j, h' j = hmod hF old ref_up j) -> edited h h' gone old.
Proof.
  intros h hF h' p d a old b ins f gone no SP OI Ho NW EQ.
  pose proof (edited_spliced _ _ _ _ _ _ _ _ _ _ old no SP OI Ho NW) as E. constructor.
  - intros j H. rewrite EQ. eapply ed_none; eauto.
  - intros j n H. rewrite EQ. eapply ed_some; eauto.
Qed.

Section ReplaceChild.
  Variables (s : st) (ch : id -> list id) (p c old : id).
  Let h := s_heap s.
  Hypothesis WF : wf s ch.
  Hypothesis Up : usable h p.
  Hypothesis Uc : usable h c.
  Hypothesis Lo : exists n, h old = Some n /\ n_type n <> ATTRIBUTE /\ no_wrap n.
  Hypothesis Rc : held h c.
  Hypothesis Rp : held h p.
  Hypothesis NE : type_of h c = Some FRAGMENT -> ch c <> [].

  Lemma replace_child_spec : forall t, repr h t -> root t = c ->
    exists o, first_failure (replace_checks h p c old) o /\
    match o with
    | Some e => replace_child p c old s = Exc e s
    | None => exists h', replace_child p c old s = Ok old (withh (addlog s (replace_log h c old t)) h') /\
           wf (withh s h') (replaced h ch p c old) /\ edited h h' (Some c) old
    end.
  Proof.
    intros t Rt Et. destruct Up as (np & Hp & NSp). destruct Uc as (nc & Hc & NSc). destruct Lo as (no & Ho & To & NWo).
    assert (Rc1 : (n_ref nc > 0)%N /\ no_wrap nc).
    { destruct Rc as (m & A & B & C). assert (m = nc) by congruence; subst; auto. } destruct Rc1 as [RC NW].
    assert (RP : (n_ref np > 0)%N).
    { destruct Rp as (m & A & B & C). assert (m = np) by congruence; subst; auto. }
    destruct WF as (WL & WT & WO & WR). fold h in WL, WT, WO, WR.
    assert (Lp : live h p) by (exists np; auto). assert (Lc : live h c) by (exists nc; auto).
    assert (TYc : type_of h c = Some (n_type nc)) by (unfold type_of; rewrite Hc; auto).
    assert (TYp : type_of h p = Some (n_type np)) by (unfold type_of; rewrite Hp; auto).
    unfold replace_child. step (load_ok s p np Hp). step (load_ok s c nc Hc).
    unfold replace_checks. rewrite TYc, TYp.
    destruct (ntype_eqb (n_type np) DOCUMENT && (ntype_eqb (n_type nc) DOCTYPE || ntype_eqb (n_type nc) ELEMENT)) eqn:NSU.
    { rewrite andb_true_iff, orb_true_iff, !ntype_eqb_eq in NSU. exists (Some NOT_SUPPORTED_ERR). split; [|reflexivity].
      constructor. destruct NSU as [A [B|B]]; rewrite A, B; auto. }
    assert (X1 : ~ (Some (n_type np) = Some DOCUMENT /\ (Some (n_type nc) = Some DOCTYPE \/ Some (n_type nc) = Some ELEMENT))).
    { intros [A B]. rewrite andb_false_iff, orb_false_iff, !ntype_eqb_neq in NSU. destruct B as [B|B]; inversion A; inversion B; intuition. }
    cbn [negb check]. rewrite bind_ret.
    destruct (oid_eqb (n_owner nc) (n_owner np)) eqn:EOW.
    2:{ exists (Some WRONG_DOCUMENT_ERR). split; [|reflexivity]. apply ff_skip; auto. constructor.
        apply oid_eqb_neq in EOW. unfold owner_of. rewrite Hc, Hp. auto. }
    apply oid_eqb_eq in EOW.
    assert (X2 : ~ owner_of h c <> owner_of h p) by (unfold owner_of; rewrite Hc, Hp; auto).
    cbn [check]. rewrite bind_ret.
    destruct (readonly_ok s ch WL WT p Lp) as (ro & ERO & BRO). step ERO.
    destruct ro. { exists (Some NO_MODIFICATION_ALLOWED_ERR). split; [|reflexivity]. do 2 (apply ff_skip; auto). constructor. apply BRO; auto. }
    assert (X3 : ~ read_only h p) by (intros X; apply BRO in X; discriminate). clear BRO ERO.
    cbn [negb check]. rewrite bind_ret. step (load_ok s old no Ho).
    destruct (oid_eqb (n_parent no) (Some p)) eqn:EPO.
    2:{ exists (Some NOT_FOUND_ERR). split; [|reflexivity]. do 3 (apply ff_skip; auto). constructor.
        apply oid_eqb_neq in EPO. unfold parent_of. rewrite Ho. auto. }
    apply oid_eqb_eq in EPO.
    assert (X4 : ~ parent_of h old <> Some p) by (unfold parent_of; rewrite Ho; auto).
    assert (IO : In old (ch p)). { destruct (wt_parent _ _ WT _ _ _ Ho EPO) as (m & _ & Q & _). apply Q; auto. }
    cbn [check]. rewrite bind_ret.
    destruct (ancestor_check_ok s ch WL WT c p Lp) as (an & EAN & BAN). step EAN.
    destruct an. { exists (Some HIERARCHY_REQUEST_ERR). split; [|reflexivity]. do 4 (apply ff_skip; auto). constructor. apply BAN; auto. }
    assert (NAN : ~ anc h c p) by (intros X; apply BAN in X; discriminate). clear BAN EAN.
    cbn [negb check]. rewrite bind_ret.
    assert (CC : forall l, children h c l <-> l = ch c).
    { intros l. split; [intros X; apply (wfT_children _ _ WT c l Lc); auto|intros ->; apply (wfT_children _ _ WT c _ Lc); auto]. }
    assert (PER : ((n_type nc = FRAGMENT /\ (exists l x, children h c l /\ In x l /\ ~ may_nest h p x) \/ n_type nc <> FRAGMENT /\ ~ may_nest h p c) /\
                     (if ntype_eqb (n_type nc) FRAGMENT then b <- with_fuel (fun f => all_permitted f p (n_first nc)) ;; check b HIERARCHY_REQUEST_ERR
                      else b <- permitted_child p c;; check b HIERARCHY_REQUEST_ERR) s = Exc HIERARCHY_REQUEST_ERR s) \/
                  ((if ntype_eqb (n_type nc) FRAGMENT then b <- with_fuel (fun f => all_permitted f p (n_first nc)) ;; check b HIERARCHY_REQUEST_ERR
                      else b <- permitted_child p c;; check b HIERARCHY_REQUEST_ERR) s = Ok tt s /\
                    (n_type nc = FRAGMENT -> forall x, In x (ch c) -> permitted s ch p x) /\ (n_type nc <> FRAGMENT -> may_nest h p c))).
    { destruct (ntype_eqb (n_type nc) FRAGMENT) eqn:E.
      - apply ntype_eqb_eq in E. destruct (wt_ends _ _ WT _ _ Hc) as [EF _].
        destruct (all_permitted_ok s ch WL WT (ch c) p (hd_error (ch c)) (fuel_of s) Lp) as (v & EV & V).
        + eapply seg_fwd. apply (wt_seg _ _ WT).
        + pose proof (ch_length s ch WL WT c). unfold fuel_of. lia.
        + rewrite EF. assert (EV' : with_fuel (fun f => all_permitted f p (hd_error (ch c))) s = Ok v s) by exact EV.
          step EV'. destruct v.
          * right. split; auto. split; [intros _; apply V; auto|congruence].
          * left. split; auto. left. split; auto. exists (ch c).
            assert (DEC : exists x, In x (ch c) /\ ~ permitted s ch p x).
            { assert (NV : ~ forall x, In x (ch c) -> permitted s ch p x) by (intros X; apply V in X; discriminate).
              assert (LV : forall x, In x (ch c) -> live h x).
              { intros x I. destruct (wt_child _ _ WT _ _ I) as (m & _ & A & _). exists m; auto. }
              clear - LV WL WT Lp NV. induction (ch c) as [|x l].
              - exfalso. apply NV. intros x [].
              - destruct (permitted_child_ok s ch WL WT p x Lp) as (v & _ & V). { apply LV; left; auto. }
                destruct v.
                + destruct IHl as (y & A & B).
                  * intros Q. apply NV. intros y [<-|I]; auto. apply V; auto.
                  * intros y I; apply LV; right; auto.
                  * exists y. split; auto. right; auto.
                + exists x. split; [left; auto|]. intros X. apply V in X. discriminate. }
            destruct DEC as (x & I & N). exists x. split; [apply CC; auto|]. split; auto.
            intros X. apply N. apply may_nest_iff; auto.
      - apply ntype_eqb_neq in E. destruct (permitted_child_ok s ch WL WT p c Lp Lc) as (b & EB & BB). step EB.
        destruct b.
        + right. split; auto. split; [congruence|]. intros _. apply (may_nest_iff s ch); auto. apply BB; auto.
        + left. split; auto. right. split; auto.
          intros X. apply (may_nest_iff s ch) in X; auto. apply BB in X. discriminate. }
    destruct PER as [(E1 & E3)|(E3 & MF & MN)].
    { exists (Some HIERARCHY_REQUEST_ERR). split; [do 5 (apply ff_skip; auto); constructor; auto|apply bind_exc; auto].
      destruct E1 as [[A B]|[A B]]; [left|right]; split; congruence. }
    step E3. clear E3.
    assert (X6 : ~ (Some (n_type nc) = Some FRAGMENT /\ (exists l x, children h c l /\ In x l /\ ~ may_nest h p x) \/
       Some (n_type nc) <> Some FRAGMENT /\ ~ may_nest h p c)).
    { intros [(A & l & x & B & C & D)|[A B]].
      - apply D. apply (may_nest_iff s ch); auto. apply CC in B. subst. apply MF; congruence.
      - apply B. apply MN. congruence. }
    unfold replaced, replace_log. rewrite TYc.
    destruct (Nat.eqb_spec c old) as [->|NCO].
    { assert (no = nc) by congruence; subst no. exists None. split.
      - do 6 (apply ff_skip; auto). apply ff_skip; [|constructor]. tauto.
      - exists (hmod h old ref_up). split; [|split].
        + erewrite bind_ok by (eapply node_ref_ok; eauto). rewrite addlog_nil. reflexivity.
        + apply (ref_up_wf s ch old nc); auto.
        + eapply edited_refl_up; eauto. }
    (* the parent is editable and has a document *)
    assert (TP : n_type np <> DOCTYPE).
    { intros X. apply X3. exists np. split; auto. }
    destruct (parent_doc _ _ WT WO _ _ Hp NSp TP) as (d & nd & Op & Hd & Td).
    assert (OC : n_owner nc = Some d) by congruence.
    assert (NDc : n_type nc <> DOCUMENT).
    { intros X. destruct (MN) as (np' & nc' & A & B & C & _). { congruence. }
      assert (nc' = nc) by congruence; subst. apply nests_iff in C. rewrite X in C. destruct (n_type np'); discriminate. }
    destruct (n_parent nc) as [q|] eqn:PC.
    - (* the node moves *)
      assert (TF : n_type nc <> FRAGMENT /\ n_type nc <> ATTRIBUTE /\ type_permitted (n_type np) (n_type nc) = true).
      { assert (TF : n_type nc <> FRAGMENT).
        { intros X. destruct (wt_parent _ _ WT _ _ _ Hc PC) as (nq & A & B & _). destruct B as [_ B]. { congruence. }
          rewrite X in B. destruct (n_type nq); discriminate. }
        split; auto. destruct (MN TF) as (np' & nc' & A & B & C & _).
        assert (np' = np) by congruence. assert (nc' = nc) by congruence. subst. apply nests_iff in C. split; auto.
        intros X. rewrite X in C. destruct (n_type np); discriminate. }
      destruct TF as (TF & TA & TPC).
      assert (Lq : live h q). { destruct (wt_parent _ _ WT _ _ _ Hc PC) as (nq & A & _). exists nq; auto. }
      destruct (readonly_ok s ch WL WT q Lq) as (roq & EQ & BQ).
      destruct roq.
      { exists (Some NO_MODIFICATION_ALLOWED_ERR). split.
        - do 6 (apply ff_skip; auto). constructor. split; auto. exists q. split; [unfold parent_of; rewrite Hc; auto|apply BQ; auto].
        - apply bind_exc. step EQ. reflexivity. }
      exists None. split.
      { do 6 (apply ff_skip; auto). apply ff_skip; [|constructor]. intros [_ (q' & X & Y)]. unfold parent_of in X. rewrite Hc in X.
        assert (q' = q) by congruence. subst. apply BQ in Y. discriminate. }
      destruct (detach_wf s ch WF q c nc Hc TA PC RC t Rt Et) as (h4 & d2 & nd2 & a0 & b0 & DE & Hd2 & Td2 & Od2 & CQ & SP & WF1).
      assert (d2 = d) by congruence. subst d2.
      set (s1 := withh (addlog s (log_removed q c t ++ [EvSubtree q])) h4) in *.
      set (ch1 := fun j => without c (ch j)) in *.
      assert (WFs1 : wf s1 ch1) by exact WF1. assert (WFs1' := WFs1). destruct WFs1' as (WL1 & WT1 & WO1 & WR1).
      destruct (sp_some _ _ _ _ _ _ _ _ _ _ SP _ _ Hp) as (np1 & Hp1 & P1 & P2 & P3 & P4 & P5 & P6 & P7 & P8 & P9).
      destruct (sp_some _ _ _ _ _ _ _ _ _ _ SP _ _ Hc) as (nc1 & Hc1 & C1 & C2 & C3 & C4 & C5 & C6 & C7 & C8 & C9).
      destruct (sp_some _ _ _ _ _ _ _ _ _ _ SP _ _ Hd) as (nd1 & Hd1 & D1 & _).
      destruct (sp_some _ _ _ _ _ _ _ _ _ _ SP _ _ Ho) as (no1 & Ho1 & _).
      destruct (sp_data _ _ _ _ _ _ _ _ _ _ SP _ _ _ Hp Hp1) as ((_ & _ & _ & _ & PR & _) & _).
      destruct (sp_data _ _ _ _ _ _ _ _ _ _ SP _ _ _ Hc Hc1) as ((_ & _ & _ & _ & CR & _) & _).
      destruct (sp_data _ _ _ _ _ _ _ _ _ _ SP _ _ _ Ho Ho1) as ((_ & _ & _ & _ & OR & _) & _).
      assert (MC : mem c [c] = true) by (apply mem_in; left; auto). rewrite MC in *. simpl in C7, P7.
      assert (NPC : p <> c) by (intros ->; apply NAN; constructor).
      assert (MP : mem p [c] = false) by (apply mem_notin; intros [X|[]]; congruence). rewrite MP in *. simpl in P3, P8.
      destruct (subst_at_split old (ch1 p)) as (a & b & CH1 & IA).
      { unfold ch1. rewrite without_eq. apply remove_id_in. split; auto. }
      assert (NAN1 : ~ anc (s_heap s1) c p) by (intros X; apply NAN; eapply spliced_out_anc; eauto).
      assert (OC1 : n_owner nc1 = Some d) by congruence.
      assert (NS1 : ~ spent nc1) by (unfold spent; rewrite C1; intuition).
      assert (ND1 : n_type nc1 <> DOCUMENT) by congruence.
      assert (TD1 : n_type nd1 = DOCUMENT) by congruence.
      assert (OP1 : n_owner np1 = Some d) by congruence.
      assert (KK : (@None id = None /\ [c] = [c] /\ n_type nc1 <> FRAGMENT) \/ (@None id = Some c /\ [c] = ch1 c /\ n_type nc1 = FRAGMENT)).
      { left. repeat split; congruence. }
      destruct (in_remove_pending s1 ch1 p c d np1 nc1 nd1 WL1 WT1 WO1 Hp1 Hc1 Hd1 C3 NS1 ND1 (or_introl OC1) NAN1) as (hu & EU & UU).
      pose proof (rp_spliced s1 ch1 p c d old a b [c] None np1 nc1 nd1 no1 WT1 WO1 CH1 Hp1 Hc1 Hd1 Ho1 OP1 TD1 C3 OC1 NAN1 KK c c eq_refl eq_refl hu UU) as SP2.
      destruct (rp_rest_exec s1 ch1 p c d old a b [c] None np1 nc1 nd1 no1 WL1 WT1 WO1 CH1 Hp1 Hc1 Hd1 Ho1 OP1 TD1 C3 OC1 NAN1 KK c c eq_refl eq_refl hu UU EU) as (h' & EH & EX2).
      match type of SP2 with spliced _ ?hh _ _ _ _ _ _ _ _ => set (hF := hh) in * end.
      exists h'. split; [|split].
      + rewrite (bind_ok _ _ _ _ _ _ tt s1). 2:{ step EQ. exact DE. }
        rewrite EX2. unfold parent_of. rewrite Hc, PC. reflexivity.
      + assert (W2 : wf (withh s1 h') (splice_ch ch1 p (a ++ [c] ++ b) None)).
        { eapply replace_wf with (np := np1) (nc := nc1) (nd := nd1) (no := no1) (c := c) (d := d) (old := old) (hF := hF); eauto.
          - unfold spent in *. rewrite P1, P8, P3. exact NSp.
          - apply (ModeOne _ _ _ c nc1); auto.
          - intros x [<-|[]]. exists nc1. repeat split; auto. congruence.
          - intros _. congruence.
          - unfold no_wrap in *. congruence. }
        apply wf_ch_ext with (ch := splice_ch ch1 p (a ++ [c] ++ b) None); auto.
        intros j. unfold splice_ch. rewrite <- IA. unfold ch1.
        destruct (n_type nc); try congruence; destruct (Nat.eqb j p); auto.
      + eapply edited_trans0; eauto. eapply edited_replaced; eauto.
        * intros x m [<-|[]] Hx. assert (m = nc1) by congruence; subst. auto.
        * unfold no_wrap in *. congruence.
    - (* the node has no parent *)
      rewrite bind_ret. exists None. split.
      { do 6 (apply ff_skip; auto). apply ff_skip; [|constructor]. intros [_ (q' & X & _)]. unfold parent_of in X. rewrite Hc in X. congruence. }
      destruct (subst_at_split old (ch p) IO) as (a & b & CH & IA).
      destruct (in_remove_pending s ch p c d np nc nd WL WT WO Hp Hc Hd PC NSc NDc (or_introl OC) NAN) as (hu & EU & UU).
      assert (Z : exists ins f x y, ((f = None /\ ins = [c] /\ n_type nc <> FRAGMENT) \/ (f = Some c /\ ins = ch c /\ n_type nc = FRAGMENT)) /\
          hd_error ins = Some x /\ last_error ins = Some y).
      { destruct (ntype_eqb (n_type nc) FRAGMENT) eqn:E.
        - apply ntype_eqb_eq in E. exists (ch c), (Some c). specialize (NE (eq_trans TYc (f_equal Some E))).
          destruct (hd_error (ch c)) as [x|] eqn:Hx. 2:{ destruct (ch c); [congruence|discriminate]. }
          destruct (last_error (ch c)) as [y|] eqn:Hy. 2:{ apply last_error_none in Hy; congruence. }
          exists x, y. auto.
        - apply ntype_eqb_neq in E. exists [c], None, c, c. auto. }
      destruct Z as (ins & f & x & y & KK & Hx & Hy).
      pose proof (rp_spliced s ch p c d old a b ins f np nc nd no WT WO CH Hp Hc Hd Ho Op Td PC OC NAN KK x y Hx Hy hu UU) as SP2.
      destruct (rp_rest_exec s ch p c d old a b ins f np nc nd no WL WT WO CH Hp Hc Hd Ho Op Td PC OC NAN KK x y Hx Hy hu UU EU) as (h' & EH & EX2).
      match type of SP2 with spliced _ ?hh _ _ _ _ _ _ _ _ => set (hF := hh) in * end.
      assert (MO : mode h ch p ins f (Some c)) by (eapply rp_mode; eauto).
      assert (INS : forall z, In z ins -> exists n, h z = Some n /\ type_permitted (n_type np) (n_type n) = true /\ ~ anc h z p /\
        (n_owner n = Some d \/ n_owner n = None)).
      { intros z I. destruct KK as [(-> & -> & T)|(-> & -> & T)].
        - destruct I as [<-|[]]. exists nc. split; auto. split; auto. destruct (MN T) as (np' & nc' & A & B & C & _).
          assert (np' = np) by congruence. assert (nc' = nc) by congruence. subst. apply nests_iff in C. auto.
        - destruct (wt_child _ _ WT _ _ I) as (m & mp & A & B & C & D & E).
          destruct (MF T _ I) as (np' & n' & F1 & F2 & F3 & _). fold h in F1, F2. assert (np' = np) by congruence. assert (n' = m) by congruence. subst.
          exists m. split; auto. split; auto. split.
          + intros X. apply NAN. eapply anc_trans; [|exact X]. econstructor; eauto. constructor.
          + rewrite (wo_child _ _ WO _ _ _ _ A D Hc). auto. }
      exists h'. split; [|split].
      + rewrite EX2. unfold parent_of. rewrite Hc, PC. rewrite addlog_nil. reflexivity.
      + assert (W2 : wf (withh s h') (splice_ch ch p (a ++ ins ++ b) f)).
        { eapply replace_wf with (np := np) (nc := nc) (nd := nd) (no := no) (c := c) (d := d) (old := old) (hF := hF); eauto. }
        apply wf_ch_ext with (ch := splice_ch ch p (a ++ ins ++ b) f); auto.
        assert (NIN : forall j, without c (ch j) = ch j).
        { intros j. rewrite without_eq. apply remove_id_notin. intros I.
          destruct (wt_child _ _ WT _ _ I) as (m & mp & A & B & C & D & E). congruence. }
        intros j. unfold splice_ch. rewrite !NIN. rewrite <- IA. destruct KK as [(-> & -> & T)|(-> & -> & T)].
        * destruct (n_type nc); try congruence; destruct (Nat.eqb j p); auto.
        * rewrite T. destruct (Nat.eqb j p); auto. simpl oid_eqb. rewrite Nat.eqb_sym. reflexivity.
      + eapply edited_replaced; eauto. intros z m I Hz. destruct (INS _ I) as (m' & A & B & C & D). assert (m' = m) by congruence; subst; auto.
  Qed.
End ReplaceChild.
