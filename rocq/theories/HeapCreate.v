(** Node creation and the navigation getters. *)
From Coq Require Import List Arith NArith Bool Lia ZifyBool ZifyNat ZifyN.
From Verif Require Import Base HeapModel HeapSpec HeapInv HeapExec HeapTree HeapSplice HeapLoops HeapEdit HeapAttach HeapInsert HeapFrame HeapOps.
Import ListNotations.
Local Open Scope dom_scope.

Lemma seg_live : forall h p l pv nx c, seg h p pv l nx -> In c l -> live h c.
Proof.
  induction l as [|y l]; intros pv nx c S I; [destruct I|]. destruct S as [(n & H & _) S].
  destruct I as [->|I]; [exists n; auto|eauto].
Qed.

(** The heap [h'] is [h] with the bare node [n0] at [i]; the list of pending nodes
    of one document [d] may have gained [i]. *)
Record grown (h h' : heap) (i : id) (n0 : node) (d : option id) : Prop := mkGrown {
  gr_fresh : h i = None;
  gr_new : h' i = Some n0;
  gr_doc : forall k, d = Some k -> exists nd, h k = Some nd /\ n_type nd = DOCUMENT /\ h' k = Some (set_pend (n_pend nd ++ [i]) nd);
  gr_other : forall j, j <> i -> d <> Some j -> h' j = h j
}.

Definition bare (n : node) : Prop :=
  n_parent n = None /\ n_first n = None /\ n_last n = None /\ n_prev n = None /\ n_next n = None /\
  n_attrs n = [] /\ n_pend n = [] /\ n_ref n = 1%N.

Section Grown.
  Variables (h h' : heap) (i : id) (n0 : node) (d : option id).
  Hypothesis G : grown h h' i n0 d.

  Lemma gr_fwd : forall j n, h j = Some n -> j <> i /\ exists n', h' j = Some n' /\
    n' = set_pend (n_pend n') n /\ (d <> Some j -> n' = n) /\ (d = Some j -> n_pend n' = n_pend n ++ [i]).
  Proof.
    intros j n H. assert (NE : j <> i). { intros ->. rewrite (gr_fresh _ _ _ _ _ G) in H. discriminate. }
    split; auto. destruct (oid_eqb d (Some j)) eqn:E.
    - apply oid_eqb_eq in E. destruct (gr_doc _ _ _ _ _ G _ E) as (nd & A & B & C).
      assert (nd = n) by congruence; subst nd. eexists. split; [exact C|]. split; [destruct n; reflexivity|].
      split; [congruence|]. intros _. destruct n; reflexivity.
    - apply oid_eqb_neq in E. exists n. rewrite (gr_other _ _ _ _ _ G) by auto. split; auto.
      split; [destruct n; reflexivity|]. split; congruence.
  Qed.

  Lemma gr_bwd : forall j n', h' j = Some n' -> j = i /\ n' = n0 \/ j <> i /\ exists n, h j = Some n /\
    n' = set_pend (n_pend n') n /\ (d <> Some j -> n' = n) /\ (d = Some j -> n_pend n' = n_pend n ++ [i]).
  Proof.
    intros j n' H. destruct (Nat.eq_dec j i) as [->|NE].
    - left. split; auto. rewrite (gr_new _ _ _ _ _ G) in H. congruence.
    - right. split; auto. destruct (h j) as [n|] eqn:E.
      + destruct (gr_fwd _ _ E) as (_ & m & A & B). assert (m = n') by congruence; subst. eauto.
      + exfalso. destruct (oid_eqb d (Some j)) eqn:Q.
        * apply oid_eqb_eq in Q. destruct (gr_doc _ _ _ _ _ G _ Q) as (nd & A & _). congruence.
        * apply oid_eqb_neq in Q. rewrite (gr_other _ _ _ _ _ G) in H by auto. congruence.
  Qed.

  Ltac fw H n' A E := let Q1 := fresh "Q1" in let Q2 := fresh "Q2" in
    destruct (gr_fwd _ _ H) as (? & n' & A & E & Q1 & Q2).

  Lemma pend_irrel : forall n l, n_type (set_pend l n) = n_type n /\ n_parent (set_pend l n) = n_parent n /\
    n_first (set_pend l n) = n_first n /\ n_last (set_pend l n) = n_last n /\ n_prev (set_pend l n) = n_prev n /\
    n_next (set_pend l n) = n_next n /\ n_attrs (set_pend l n) = n_attrs n /\ n_owner (set_pend l n) = n_owner n /\
    n_pending (set_pend l n) = n_pending n /\ n_ref (set_pend l n) = n_ref n.
  Proof. intros []; repeat split. Qed.

  Lemma pe : forall n n', n' = set_pend (n_pend n') n -> n_type n' = n_type n /\ n_parent n' = n_parent n /\
    n_first n' = n_first n /\ n_last n' = n_last n /\ n_prev n' = n_prev n /\
    n_next n' = n_next n /\ n_attrs n' = n_attrs n /\ n_owner n' = n_owner n /\
    n_pending n' = n_pending n /\ n_ref n' = n_ref n.
  Proof. intros n n' E. rewrite E. apply pend_irrel. Qed.

  Variable ch : id -> list id.
  Hypothesis BA : bare n0.
  Hypothesis WT : wfT h ch.

  Lemma ch_fresh : ch i = [].
  Proof. apply (wt_dead _ _ WT). apply (gr_fresh _ _ _ _ _ G). Qed.

  Lemma grown_wfT : wfT h' ch.
  Proof.
    destruct BA as (BP & BF & BL & BV & BN & BT & BQ & BR). constructor.
    - intros j H. apply (wt_dead _ _ WT). destruct (h j) eqn:E; auto. fw E n' A Q. congruence.
    - intros p n' H. destruct (gr_bwd _ _ H) as [[-> ->]|(NE & n & A & E & _)].
      + rewrite ch_fresh, BF, BL. auto.
      + destruct (pe _ _ E) as (E1 & E2 & E3 & E4 & _). rewrite E3, E4. apply (wt_ends _ _ WT); auto.
    - intros p. eapply seg_ext; [|apply (wt_seg _ _ WT)]. intros c n I Hc.
      fw Hc n' A E. destruct (pe _ _ E) as (E1 & E2 & E3 & E4 & E5 & E6 & _). exists n'. split; auto. repeat split; auto.
    - apply (wt_nodup _ _ WT).
    - intros j n' p H P. destruct (gr_bwd _ _ H) as [[-> ->]|(NE & n & A & E & _)]; [congruence|].
      destruct (pe _ _ E) as (E1 & E2 & _). rewrite E2 in P.
      destruct (wt_parent _ _ WT _ _ _ A P) as (np & N1 & N2 & N3). fw N1 np' B F. 
      destruct (pe _ _ F) as (F1 & F2 & F3 & F4 & F5 & F6 & F7 & _). exists np'. split; auto. rewrite E1, F1, F7. auto.
    - intros e n' H. destruct (gr_bwd _ _ H) as [[-> ->]|(NE & n & A & E & _)].
      + rewrite BT. split; [constructor|]. split; [congruence|]. intros a [].
      + destruct (pe _ _ E) as (E1 & E2 & E3 & E4 & E5 & E6 & E7 & _). destruct (wt_attrs _ _ WT _ _ A) as (X & Y & Z).
        rewrite E7, E1. split; auto. split; auto. intros a I. destruct (Z _ I) as (na & N1 & N2 & N3).
        fw N1 na' B F. destruct (pe _ _ F) as (F1 & F2 & _). exists na'. repeat split; congruence.
    - intros j [n' H]. destruct (gr_bwd _ _ H) as [[-> ->]|(NE & n & A & E & _)].
      + eapply rooted_top; eauto.
      + eapply rooted_ext; [|apply (wt_rooted _ _ WT); exists n; eauto].
        intros k m _ Hk. fw Hk m' B F. destruct (pe _ _ F) as (F1 & F2 & _). eauto.
  Qed.

  Hypothesis WO : wfO h ch.
  Hypothesis OWN : match d with
                   | Some k => n_type n0 <> DOCUMENT /\ n_owner n0 = Some k /\ n_pending n0 = true
                   | None => n_pending n0 = false /\
                       (n_type n0 = DOCUMENT /\ n_owner n0 = Some i \/ n_type n0 = DOCTYPE /\ n_owner n0 = None)
                   end.

  Lemma grown_wfO : wfO h' ch.
  Proof.
    destruct BA as (BP & BF & BL & BV & BN & BT & BQ & BR).
    assert (SP : forall n n', n' = set_pend (n_pend n') n -> (spent n' <-> spent n)).
    { intros n n' E. destruct (pe _ _ E) as (E1 & E2 & E3 & E4 & E5 & E6 & E7 & E8 & E9 & E10). unfold spent. rewrite E1, E2, E9. tauto. }
    assert (NI : forall k nk, h k = Some nk -> ~ In i (n_pend nk)).
    { intros k nk K I. destruct (wo_pend _ _ WO _ _ _ K I) as (m & M & _). rewrite (gr_fresh _ _ _ _ _ G) in M. discriminate. }
    constructor.
    - intros j n' H T. destruct (gr_bwd _ _ H) as [[-> ->]|(NE & n & A & E & Q1 & Q2)].
      + destruct d; [destruct OWN; contradiction|]. destruct OWN as [O1 [[O2 O3]|[O2 O3]]]; [|congruence].
        rewrite BQ. repeat split; auto. constructor.
      + destruct (pe _ _ E) as (E1 & E2 & E3 & E4 & E5 & E6 & E7 & E8 & E9 & E10).
        destruct (wo_doc _ _ WO _ _ A) as (X1 & X2 & X3 & X4). { congruence. }
        rewrite E8, E2, E9. repeat split; auto.
        destruct (oid_eqb d (Some j)) eqn:Z.
        * apply oid_eqb_eq in Z. rewrite (Q2 Z). apply NoDup_app; auto. { constructor; auto. constructor. }
          intros x I [<-|[]]. eapply NI; eauto.
        * apply oid_eqb_neq in Z. rewrite (Q1 Z). auto.
    - intros j n' H T. destruct (gr_bwd _ _ H) as [[-> ->]|(NE & n & A & E & Q1 & Q2)]; auto.
      destruct (pe _ _ E) as (E1 & _). rewrite E1 in T. rewrite Q1. { apply (wo_nondoc _ _ WO _ _ A); auto. }
      intros Z. destruct (gr_doc _ _ _ _ _ G _ Z) as (nd & B & C & _). congruence.
    - intros k nk' j H I. destruct (gr_bwd _ _ H) as [[-> ->]|(NE & nk & A & E & Q1 & Q2)].
      { rewrite BQ in I. destruct I. }
      assert (J : In j (n_pend nk) \/ d = Some k /\ j = i).
      { destruct (oid_eqb d (Some k)) eqn:Z.
        - apply oid_eqb_eq in Z. rewrite (Q2 Z) in I. apply in_app_or in I. destruct I as [I|[I|[]]]; auto.
        - apply oid_eqb_neq in Z. rewrite (Q1 Z) in I. auto. }
      destruct J as [J|[J1 J2]].
      + destruct (wo_pend _ _ WO _ _ _ A J) as (m & M1 & M2 & M3). fw M1 m' B F.
        destruct (pe _ _ F) as (F1 & F2 & F3 & F4 & F5 & F6 & F7 & F8 & F9 & F10). exists m'. repeat split; congruence.
      + subst j. rewrite J1 in OWN. destruct OWN as (O1 & O2 & O3). exists n0. split; [apply (gr_new _ _ _ _ _ G)|auto].
    - intros j n' H P. destruct (gr_bwd _ _ H) as [[-> ->]|(NE & n & A & E & Q1 & Q2)].
      + split; auto. pose proof (gr_doc _ _ _ _ _ G) as GD. destruct d as [k|]; [|destruct OWN; congruence]. destruct OWN as (O1 & O2 & O3).
        destruct (GD _ eq_refl) as (nd & B & C & D). exists k. eexists. split; auto. split; eauto.
        destruct nd; simpl. apply in_or_app. right. left. auto.
      + destruct (pe _ _ E) as (E1 & E2 & E3 & E4 & E5 & E6 & E7 & E8 & E9 & E10).
        destruct (wo_pending _ _ WO _ _ A) as (X & k & nd & Y1 & Y2 & Y3). { congruence. }
        split; [congruence|]. destruct (gr_fwd _ _ Y2) as (NK & nd' & B & F & R1 & R2). exists k, nd'. split; [congruence|]. split; auto.
        destruct (oid_eqb d (Some k)) eqn:Z.
        * apply oid_eqb_eq in Z. rewrite (R2 Z). apply in_or_app; auto.
        * apply oid_eqb_neq in Z. rewrite (R1 Z). auto.
    - intros j n' k H O. destruct (gr_bwd _ _ H) as [[-> ->]|(NE & n & A & E & Q1 & Q2)].
      + pose proof (gr_doc _ _ _ _ _ G) as GD. left. destruct d as [k'|].
        * destruct OWN as (O1 & O2 & O3). assert (k' = k) by congruence; subst.
          destruct (GD _ eq_refl) as (nd & B & C & D). eexists. split; eauto.
        * destruct OWN as [O1 [[O2 O3]|[O2 O3]]]; [|congruence]. assert (k = i) by congruence; subst. eauto.
      + destruct (pe _ _ E) as (E1 & E2 & E3 & E4 & E5 & E6 & E7 & E8 & E9 & E10).
        destruct (wo_owner _ _ WO j n k A) as [(nd & X & Y)|[X Y]]. { congruence. }
        * left. fw X nd' B F. destruct (pe _ _ F) as (F1 & _). exists nd'. split; auto. congruence.
        * right. split; auto. apply (SP _ _ E); auto.
    - intros j n' H O. destruct (gr_bwd _ _ H) as [[-> ->]|(NE & n & A & E & Q1 & Q2)].
      + split; auto. destruct d. { destruct OWN as (_ & X & _). congruence. } destruct OWN as [O1 [[O2 O3]|[O2 O3]]]; congruence.
      + destruct (pe _ _ E) as (E1 & E2 & E3 & E4 & E5 & E6 & E7 & E8 & E9 & E10). rewrite E1, E2. apply (wo_noowner _ _ WO _ _ A). congruence.
    - intros j n' p np' H P H'. destruct (gr_bwd _ _ H) as [[-> ->]|(NE & n & A & E & Q1 & Q2)]; [congruence|].
      destruct (pe _ _ E) as (E1 & E2 & E3 & E4 & E5 & E6 & E7 & E8 & E9 & E10).
      destruct (wt_parent _ _ WT j n p A) as (np & NP & _). { congruence. }
      fw NP np2 B F. assert (np2 = np') by congruence; subst np2.
      destruct (pe _ _ F) as (F1 & F2 & F3 & F4 & F5 & F6 & F7 & F8 & F9 & F10). rewrite E8, F8.
      eapply (wo_child _ _ WO); eauto. congruence.
    - intros j n' k H P T O. destruct (gr_bwd _ _ H) as [[-> ->]|(NE & n & A & E & Q1 & Q2)].
      + destruct d. { left; apply OWN. } destruct OWN as [O1 [[O2 O3]|[O2 O3]]]; congruence.
      + destruct (pe _ _ E) as (E1 & E2 & E3 & E4 & E5 & E6 & E7 & E8 & E9 & E10).
        destruct (wo_top _ _ WO j n k A) as [X|[X Y]]; try congruence.
        * left; congruence.
        * right. split; auto. apply (SP _ _ E); auto.
  Qed.

  Lemma grown_wfR : wfR h ch -> wfR h' ch.
  Proof.
    intros WR. destruct BA as (BP & BF & BL & BV & BN & BT & BQ & BR). constructor.
    - intros j n' H P T. destruct (gr_bwd _ _ H) as [[-> ->]|(NE & n & A & E & Q1 & Q2)]; [lia|].
      destruct (pe _ _ E) as (E1 & E2 & E3 & E4 & E5 & E6 & E7 & E8 & E9 & E10). rewrite E10.
      apply (wr_top _ _ WR _ _ A); congruence.
    - intros j n' H T. destruct (gr_bwd _ _ H) as [[-> ->]|(NE & n & A & E & Q1 & Q2)]; [left; lia|].
      destruct (pe _ _ E) as (E1 & E2 & E3 & E4 & E5 & E6 & E7 & E8 & E9 & E10). rewrite E10.
      destruct (wr_doc _ _ WR _ _ A) as [X|[X Y]]; try congruence; auto. right. split; auto.
      destruct (oid_eqb d (Some j)) eqn:Z.
      + apply oid_eqb_eq in Z. rewrite (Q2 Z). destruct (n_pend n); discriminate.
      + apply oid_eqb_neq in Z. rewrite (Q1 Z). auto.
  Qed.

  Lemma grown_wfL : forall nx, wfL h nx -> i = nx -> wfL h' (S nx).
  Proof.
    intros nx WL E j n' H. destruct (gr_bwd _ _ H) as [[-> ->]|(NE & n & A & _)]; [lia|]. apply WL in A. lia.
  Qed.
End Grown.

Lemma grown_wf : forall s h' ch n0 d, wf s ch -> grown (s_heap s) h' (s_nxt s) n0 d -> bare n0 ->
  match d with
  | Some k => n_type n0 <> DOCUMENT /\ n_owner n0 = Some k /\ n_pending n0 = true
  | None => n_pending n0 = false /\
       (n_type n0 = DOCUMENT /\ n_owner n0 = Some (s_nxt s) \/ n_type n0 = DOCTYPE /\ n_owner n0 = None)
  end -> wf (mkSt h' (S (s_nxt s)) (s_log s)) ch.
Proof.
  intros s h' ch n0 d (WL & WT & WO & WR) G B O. split; [|split; [|split]]; simpl.
  - eapply grown_wfL; eauto.
  - eapply grown_wfT; eauto.
  - eapply grown_wfO; eauto.
  - eapply grown_wfR; eauto.
Qed.

Lemma nxt_fresh : forall s ch, wf s ch -> s_heap s (s_nxt s) = None.
Proof. intros s ch (WL & _). destruct (s_heap s (s_nxt s)) eqn:E; auto. apply WL in E. lia. Qed.

Lemma create_node_spec : forall s ch d nd t nm v ns pf, wf s ch -> s_heap s d = Some nd -> n_type nd = DOCUMENT -> t <> DOCUMENT ->
  exists h', create_node (Some d) t nm v ns pf s = Ok (s_nxt s) (mkSt h' (S (s_nxt s)) (s_log s)) /\
    wf (mkSt h' (S (s_nxt s)) (s_log s)) ch /\
    grown (s_heap s) h' (s_nxt s) (set_pending true (new_node t nm v ns pf (Some d))) (Some d).
Proof.
  intros s ch d nd t nm v ns pf W Hd Td TN. pose proof (nxt_fresh _ _ W) as F.
  assert (NE : d <> s_nxt s) by congruence.
  set (i := s_nxt s) in *. set (n := new_node t nm v ns pf (Some d)).
  set (h1 := hupd (s_heap s) i (Some n)).
  exists (hmod (hmod h1 d (fun n => set_pend (n_pend n ++ [i]) n)) i (set_pending true)).
  assert (H1d : h1 d = Some nd). { unfold h1, hupd. apply Nat.eqb_neq in NE. rewrite NE. auto. }
  assert (H1i : h1 i = Some n). { unfold h1, hupd. rewrite Nat.eqb_refl. auto. }
  assert (G : grown (s_heap s) (hmod (hmod h1 d (fun n => set_pend (n_pend n ++ [i]) n)) i (set_pending true)) i (set_pending true n) (Some d)).
  { constructor; auto.
    - rewrite hmod_same, hmod_other by auto. rewrite H1i. auto.
    - intros k E. inversion E; subst k. exists nd. split; auto. split; auto. rewrite hmod_other by auto. rewrite hmod_same, H1d. auto.
    - intros j J K. rewrite !hmod_other by congruence. unfold h1, hupd. apply Nat.eqb_neq in J. rewrite J. auto. }
  split; [|split; auto].
  - unfold create_node. rewrite bind_assoc. step (load_ok _ _ _ Hd). rewrite bind_ret.
    assert (AL : alloc n s = Ok i (mkSt h1 (S i) (s_log s))) by reflexivity.
    unfold n in AL. step AL. unfold mark_pending. rewrite bind_assoc.
    step (load_ok (mkSt h1 (S i) (s_log s)) i n H1i). change (n_owner n) with (Some d). cbv iota.
    change (assert_ (negb (n_pending n))) with (@ret st unit tt). rewrite bind_assoc, bind_ret.
    unfold pend_append. rewrite bind_assoc.
    step (upd_ok (mkSt h1 (S i) (s_log s)) d nd (fun n => set_pend (n_pend n ++ [i]) n) H1d).
    erewrite bind_ok; [|eapply upd_ok; rewrite withh_heap; rewrite hmod_other by auto; exact H1i]. reflexivity.
  - eapply grown_wf; eauto. { repeat split. } simpl. auto.
Qed.

Lemma create_doctype_spec : forall s ch nm v ns pf, wf s ch ->
  exists h', create_node None DOCTYPE nm v ns pf s = Ok (s_nxt s) (mkSt h' (S (s_nxt s)) (s_log s)) /\
    wf (mkSt h' (S (s_nxt s)) (s_log s)) ch /\
    grown (s_heap s) h' (s_nxt s) (new_node DOCTYPE nm v ns pf None) None.
Proof.
  intros s ch nm v ns pf W. pose proof (nxt_fresh _ _ W) as F. set (i := s_nxt s) in *.
  exists (hupd (s_heap s) i (Some (new_node DOCTYPE nm v ns pf None))).
  assert (G : grown (s_heap s) (hupd (s_heap s) i (Some (new_node DOCTYPE nm v ns pf None))) i (new_node DOCTYPE nm v ns pf None) None).
  { constructor; auto.
    - unfold hupd. rewrite Nat.eqb_refl. auto.
    - discriminate.
    - intros j J _. unfold hupd. apply Nat.eqb_neq in J. rewrite J. auto. }
  split; [|split; auto].
  - set (h1 := hupd (s_heap s) i (Some (new_node DOCTYPE nm v ns pf None))) in *. unfold create_node. rewrite bind_ret.
    assert (AL : alloc (new_node DOCTYPE nm v ns pf None) s = Ok i (mkSt h1 (S i) (s_log s))) by reflexivity.
    step AL. unfold mark_pending. rewrite bind_assoc.
    step (load_ok (mkSt h1 (S i) (s_log s)) i (new_node DOCTYPE nm v ns pf None) (gr_new _ _ _ _ _ G)). reflexivity.
  - eapply grown_wf; eauto. { repeat split. } simpl. auto.
Qed.

Lemma create_document_spec : forall s ch, wf s ch ->
  exists h', create_document s = Ok (s_nxt s) (mkSt h' (S (s_nxt s)) (s_log s)) /\
    wf (mkSt h' (S (s_nxt s)) (s_log s)) ch /\
    grown (s_heap s) h' (s_nxt s) (set_owner (Some (s_nxt s)) (new_node DOCUMENT (Some document_name) None None None None)) None.
Proof.
  intros s ch W. pose proof (nxt_fresh _ _ W) as F. set (i := s_nxt s) in *.
  set (n := new_node DOCUMENT (Some document_name) None None None None).
  set (h1 := hupd (s_heap s) i (Some n)).
  assert (H1 : h1 i = Some n) by (unfold h1, hupd; rewrite Nat.eqb_refl; auto).
  exists (hmod h1 i (set_owner (Some i))).
  assert (G : grown (s_heap s) (hmod h1 i (set_owner (Some i))) i (set_owner (Some i) n) None).
  { constructor; auto.
    - rewrite hmod_same, H1. auto.
    - discriminate.
    - intros j J _. rewrite hmod_other by auto. unfold h1, hupd. apply Nat.eqb_neq in J. rewrite J. auto. }
  split; [|split; auto].
  - unfold create_document. assert (AL : alloc n s = Ok i (mkSt h1 (S i) (s_log s))) by reflexivity.
    unfold n in AL. step AL. step (upd_ok (mkSt h1 (S i) (s_log s)) i n (set_owner (Some i)) H1). reflexivity.
  - eapply grown_wf; eauto. { repeat split. } simpl. auto.
Qed.

(** ** Navigation *)

(** What a getter that answers [o] does to the state. *)
Definition got (s s' : st) (o : option id) : Prop :=
  match o with
  | None => s' = s
  | Some i => exists n, s_heap s i = Some n /\ s' = withh s (hmod (s_heap s) i ref_up)
  end.

Lemma ref_opt_ok : forall s o, (forall i, o = Some i -> live (s_heap s) i) -> exists s', ref_opt o s = Ok o s' /\ got s s' o.
Proof.
  intros s [i|] H; simpl.
  - destruct (H i eq_refl) as [n Hn]. exists (withh s (hmod (s_heap s) i ref_up)). split; [|eauto].
    erewrite bind_ok; [|eapply node_ref_ok; exact Hn]. reflexivity.
  - exists s. split; auto.
Qed.

Section Getters.
  Variables (s : st) (ch : id -> list id).
  Hypothesis W : wf s ch.
  Let h := s_heap s.

  Lemma get_parent_ok : forall i n, h i = Some n ->
    let o := if ntype_eqb (n_type n) ATTRIBUTE then None else n_parent n in
    exists s', get_parent_node i s = Ok o s' /\ got s s' o.
  Proof.
    intros i n H o. destruct W as (WL & WT & WO & WR). unfold get_parent_node. step (load_ok _ _ _ H). subst o.
    destruct (ntype_eqb (n_type n) ATTRIBUTE).
    - exists s. split; auto. reflexivity.
    - apply ref_opt_ok. intros p P. destruct (wt_parent _ _ WT _ _ _ H P) as (np & A & _). exists np; auto.
  Qed.

  Lemma get_first_ok : forall i n, h i = Some n ->
    exists s', get_first_child i s = Ok (hd_error (ch i)) s' /\ got s s' (hd_error (ch i)).
  Proof.
    intros i n H. destruct W as (WL & WT & WO & WR). unfold get_first_child. step (load_ok _ _ _ H).
    destruct (wt_ends _ _ WT _ _ H) as [E _]. rewrite E. apply ref_opt_ok. intros c Q.
    eapply seg_live; [apply (wt_seg _ _ WT i)|]. destruct (ch i); [discriminate|]. simpl in Q. left; congruence.
  Qed.

  Lemma get_last_ok : forall i n, h i = Some n ->
    exists s', get_last_child i s = Ok (last_error (ch i)) s' /\ got s s' (last_error (ch i)).
  Proof.
    intros i n H. destruct W as (WL & WT & WO & WR). unfold get_last_child. step (load_ok _ _ _ H).
    destruct (wt_ends _ _ WT _ _ H) as [_ E]. rewrite E. apply ref_opt_ok. intros c Q.
    eapply seg_live; [apply (wt_seg _ _ WT i)|]. apply last_error_in. auto.
  Qed.

  Lemma get_owner_ok : forall i n, h i = Some n -> ~ spent n ->
    let o := if ntype_eqb (n_type n) DOCUMENT then None else n_owner n in
    exists s', get_owner_document i s = Ok o s' /\ got s s' o.
  Proof.
    intros i n H NS o. destruct W as (WL & WT & WO & WR). unfold get_owner_document. step (load_ok _ _ _ H). subst o.
    destruct (ntype_eqb (n_type n) DOCUMENT).
    - exists s. split; auto. reflexivity.
    - apply ref_opt_ok. intros d O. destruct (wo_owner _ _ WO _ _ _ H O) as [(nd & A & _)|[A _]]; [exists nd; auto|contradiction].
  Qed.

  (** The neighbours of a node that has a parent. *)
  Lemma get_sibling_ok : forall i n p a b, h i = Some n -> ch p = a ++ i :: b ->
    (exists s', get_previous_sibling i s = Ok (last_error a) s' /\ got s s' (last_error a)) /\
    (exists s', get_next_sibling i s = Ok (hd_error b) s' /\ got s s' (hd_error b)).
  Proof.
    intros i n p a b H CH. destruct W as (WL & WT & WO & WR). fold h in WT.
    destruct (wt_links _ _ WT _ _ _ _ CH) as (m & Hm & TA & PA & PV & NX). assert (m = n) by congruence; subst m.
    assert (LV : forall x, In x (ch p) -> live h x). { intros x I. eapply seg_live; [apply (wt_seg _ _ WT p)|auto]. }
    unfold get_previous_sibling, get_next_sibling. rewrite !(bind_ok _ _ _ _ _ _ _ _ (load_ok _ _ _ H)).
    apply ntype_eqb_neq in TA. rewrite TA. rewrite PV, NX. split; apply ref_opt_ok.
    - intros x X. apply last_error_in in X. apply LV. rewrite CH. apply in_or_app; auto.
    - intros x X. apply LV. rewrite CH. apply in_or_app. right. right. destruct b; [discriminate|]. simpl in X. left; congruence.
  Qed.

  Lemma contains_ok : forall i j n m, h i = Some n -> h j = Some m ->
    exists b, contains i j s = Ok b s /\ (b = true <-> n_owner n = n_owner m /\ anc h i j).
  Proof.
    intros i j n m Hi Hj. destruct W as (WL & WT & WO & WR). unfold contains. step (load_ok _ _ _ Hi). step (load_ok _ _ _ Hj).
    destruct (oid_eqb (n_owner n) (n_owner m)) eqn:E.
    - apply oid_eqb_eq in E. destruct (ancestor_check_ok s ch WL WT i j) as (b & A & B). { exists m; auto. }
      exists b. split; auto. rewrite B. tauto.
    - apply oid_eqb_neq in E. exists false. split; auto. split; [discriminate|tauto].
  Qed.

  Lemma has_child_ok : forall i n, h i = Some n -> has_child_nodes i s = Ok (match ch i with [] => false | _ => true end) s.
  Proof.
    intros i n H. destruct W as (WL & WT & WO & WR). unfold has_child_nodes. step (load_ok _ _ _ H).
    destruct (wt_ends _ _ WT _ _ H) as [E _]. rewrite E. destruct (ch i); reflexivity.
  Qed.
End Getters.
