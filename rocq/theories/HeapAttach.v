(** What attach_range does to the heap. *)
From Coq Require Import List Arith NArith Bool Lia ZifyBool ZifyNat ZifyN.
From Verif Require Import Base HeapModel HeapSpec HeapInv HeapExec HeapTree HeapSplice HeapLoops HeapEdit.
Import ListNotations.
Local Open Scope dom_scope.

Fixpoint hpar (h : heap) (p : id) (l : list id) : heap :=
  match l with [] => h | i :: r => hpar (hmod h i (set_parent (Some p))) p r end.

Lemma hpar_get : forall p l h j n, h j = Some n ->
  hpar h p l j = Some (if mem j l then set_parent (Some p) n else n).
Proof.
  induction l; intros h j n H; cbn [hpar]. { auto. }
  erewrite IHl by (eapply hmod_get; eauto). unfold mem. cbn [existsb].
  destruct (Nat.eqb j a); auto. destruct (existsb (Nat.eqb j) l); auto.
Qed.

Lemma hpar_none : forall p l h j, h j = None -> hpar h p l j = None.
Proof.
  induction l; intros h j H; cbn [hpar]; auto. apply IHl. apply hmod_none. auto.
Qed.

Fixpoint lchain (h : heap) (l : list id) (nx : option id) : Prop :=
  match l with
  | [] => True
  | c :: r => (exists n, h c = Some n /\ n_next n = match r with [] => nx | x :: _ => Some x end) /\ lchain h r nx
  end.

Lemma lchain_ext : forall h h' l nx,
  (forall j n, In j l -> h j = Some n -> exists n', h' j = Some n' /\ n_next n' = n_next n) ->
  lchain h l nx -> lchain h' l nx.
Proof.
  induction l as [|c l]; simpl; intros nx H L; auto. destruct L as [(n & A & B) L]. split.
  - destruct (H c n) as (n' & A' & B'); auto. exists n'. split; congruence.
  - eapply IHl; eauto.
Qed.

Definition log_inserted (p : id) (t : rose) : list event :=
  EvInserted (root t) p :: map EvInsertedDoc (desc t).

Lemma below_roots : forall ts, NoDup (flat_map nodes ts) -> forall t t0 k j, In t ts -> In t0 ts ->
  In k (atts t ++ kids t) -> In j (nodes k) -> j <> root t0.
Proof.
  induction ts as [|x ts]; intros ND t t0 k j I I0 K J E. { destruct I. }
  cbn [flat_map] in ND. apply NoDup_app_inv in ND. destruct ND as (N1 & N2 & N3).
  assert (JT : In j (nodes t)). { apply in_app_or in K. destruct K; [apply (attr_in_nodes t k)|apply (kid_in_nodes t k)]; auto. }
  destruct I as [->|I]; destruct I0 as [->|I0].
  - subst j. destruct t0 as [i ats ks]. simpl in *. inversion N1; subst. apply H1.
    apply in_app_or in K. apply in_or_app. destruct K; [left|right]; apply in_flat_map; exists k; split; auto; congruence.
  - apply (N3 _ JT). apply in_flat_map. exists t0. split; auto. subst j. apply root_in_nodes.
  - apply (N3 (root t0)). { apply root_in_nodes. } apply in_flat_map. exists t. split; auto. congruence.
  - exact (IHts N2 t t0 k j I I0 K J E).
Qed.

Lemma repr_set_parent : forall h ts t t0 v, Forall (repr h) ts -> NoDup (flat_map nodes ts) -> In t ts -> In t0 ts ->
  repr (hmod h (root t0) (set_parent v)) t.
Proof.
  intros h ts t t0 v F ND I I0. rewrite Forall_forall in F.
  apply repr_frame with (h := h); auto.
  - intros n Hn. eexists; split; [hget|]. unfold down_eq. nproj. auto.
  - intros k K j n J Hj. exists n. split; [|apply link_eq_refl].
    rewrite hmod_other; auto. exact (below_roots ts ND t t0 k j I I0 K J).
Qed.

Lemma attach_loop_ok : forall ts s f p d last next l np nd,
  s_heap s p = Some np -> n_owner np = Some d -> s_heap s d = Some nd ->
  achain (s_heap s) (Some p) l -> (forall r, In r (map root ts) -> ~ In r l) ->
  Forall (repr (s_heap s)) ts -> NoDup (flat_map nodes ts) ->
  lchain (s_heap s) (map root ts) next ->
  (exists nl, s_heap s last = Some nl /\ n_next nl = next) ->
  (forall r, In r (map root ts) -> next <> Some r) ->
  length l + length (flat_map nodes ts) < fuel_of s -> length ts <= f ->
  attach_loop f p last (match map root ts with [] => next | x :: _ => Some x end) s =
   Ok tt (withh (addlog s (flat_map (log_inserted p) ts)) (hpar (s_heap s) p (map root ts))).
Proof.
  induction ts as [|t ts]; intros s f p d last next l np nd Hp Op Hd AC NL FR ND LC (nl & Hl & Nl) NN LF F.
  - cbn [map flat_map hpar]. unfold attach_loop. destruct f; step (load_ok _ _ _ Hl); rewrite Nl, oid_eqb_refl;
      rewrite addlog_nil; destruct s; reflexivity.
  - destruct f as [|f]; [simpl in F; lia|]. cbn [map flat_map hpar attach_loop] in *.
    step (load_ok _ _ _ Hl). rewrite Nl.
    assert (E : oid_eqb (Some (root t)) next = false).
    { apply oid_eqb_neq. intros E. apply (NN (root t)); auto. left; auto. }
    rewrite E. step (deref_ok (root t) s). destruct LC as [(n & Hn & Nn) LC].
    step (upd_ok _ _ _ (set_parent (Some p)) Hn).
    set (h1 := hmod (s_heap s) (root t) (set_parent (Some p))). set (s1 := withh s h1).
    assert (NEp : p <> root t).
    { intros ->. apply (NL (root t)); [left; auto|]. destruct (achain_some _ _ _ AC) as (? & ? & -> & _). left; auto. }
    assert (Hp1 : h1 p = Some np) by (unfold h1; rewrite hmod_other; auto).
    step (load_ok s1 p np Hp1). rewrite Op.
    assert (LV : forall j m, s_heap s j = Some m -> exists m', h1 j = Some m' /\ n_next m' = n_next m).
    { intros j m Hj. unfold h1. eexists; split; [hget|]. nproj. auto. }
    destruct (h1 d) as [nd1|] eqn:Hd1. 2:{ unfold h1 in Hd1. apply hmod_none in Hd1. congruence. }
    assert (FR1 : Forall (repr h1) (t :: ts)).
    { rewrite Forall_forall. intros x I. unfold h1. eapply repr_set_parent; eauto. left; auto. }
    assert (AC1 : achain h1 (Some p) l).
    { assert (X : forall o l', achain (s_heap s) o l' -> ~ In (root t) l' -> achain h1 o l').
      { clear. intros o l' A. induction A; intros N. { constructor. }
        assert (i <> root t) by (intros ->; apply N; left; auto).
        apply (achain_cons h1 i n). { unfold h1. rewrite hmod_other; auto. } apply IHA. intros Q; apply N; right; auto. }
      apply X; auto. apply NL. left; auto. }
    assert (AT : achain h1 (Some (root t)) (root t :: l)).
    { apply (achain_cons h1 (root t) (set_parent (Some p) n)).
      - unfold h1. rewrite hmod_same, Hn. reflexivity.
      - exact AC1. }
    assert (NDt : NoDup (nodes t)). { apply NoDup_app_inv in ND. tauto. }
    rewrite (bind_ok _ _ _ _ _ _ tt (addlog s1 (log_inserted p t))).
    2:{ apply (change_event_ok d nd1 (root t) p ADDITION s1 t l); auto.
        - inversion FR1; auto.
        - unfold fuel_of in *. unfold s1. rewrite withh_nxt. rewrite app_length in LF. lia. }
    destruct (LV _ _ Hn) as (n1 & Hn1 & Nn1).
    rewrite (bind_ok _ _ _ _ _ _ n1 (addlog s1 (log_inserted p t))) by (apply load_ok; exact Hn1).
    rewrite Nn1, Nn.
    rewrite (IHts (addlog s1 (log_inserted p t)) f p d last next l np nd1); auto.
    + f_equal. rewrite addlog_addlog. reflexivity.
    + intros r I. apply NL. right; auto.
    + inversion FR1; auto.
    + apply NoDup_app_inv in ND. tauto.
    + eapply lchain_ext; [|exact LC]. intros j m _ Hj. apply LV; auto.
    + destruct (LV _ _ Hl) as (nl1 & A & B). exists nl1. split; auto. congruence.
    + intros r I. apply NN. right; auto.
    + unfold fuel_of in *. unfold s1. rewrite addlog_nxt, withh_nxt. rewrite app_length in LF. lia.
    + simpl in F; lia.
Qed.

(** The state after remove_pending: only the pending fields differ. *)
Record unpended (h h1 : heap) (d : id) (gone : option id) : Prop := mkUnp {
  un_none : forall j, h j = None -> h1 j = None;
  un_some : forall j n, h j = Some n -> exists n', h1 j = Some n' /\ link_eq n n' /\ data_eq n n' /\
    n_owner n' = n_owner n /\
    n_pending n' = (if oid_eqb gone (Some j) then false else n_pending n) /\
    n_pend n' = (if Nat.eqb j d then rm_opt gone (n_pend n) else n_pend n)
}.

Lemma data_eq_refl : forall n, data_eq n n.
Proof. intros. repeat split. Qed.

Lemma remove_pending_some : forall s i n d nd, s_heap s i = Some n -> n_owner n = Some d -> n_pending n = true ->
  s_heap s d = Some nd ->
  exists h1, remove_pending i s = Ok tt (withh s h1) /\ unpended (s_heap s) h1 d (Some i).
Proof.
  intros s i n d nd Hi Oi Pi Hd. unfold remove_pending. step (load_ok _ _ _ Hi). rewrite Oi, Pi. cbn [assert_].
  rewrite bind_ret. unfold pend_del.
  eexists. split.
  - supd. erewrite upd_ok by (rewrite withh_heap; hget). rewrite withh_withh, withh_heap. reflexivity.
  - constructor.
    + intros j Hj. apply hmod_none. apply hmod_none. auto.
    + intros j m Hj. eexists; split; [hget|]. unfold link_eq, sib_eq, data_eq. nproj. rewrite oid_eqb_some, (Nat.eqb_sym i j).
      repeat split; auto; repeat neqb; auto.
Qed.

Lemma mode_inv : forall h ch p ins f gone, mode h ch p ins f gone ->
  (ins = [] /\ f = None /\ gone = None) \/
  (exists c n, ins = [c] /\ f = None /\ gone = Some c /\ h c = Some n /\ n_parent n = None) \/
  (exists g n, ins = ch g /\ f = Some g /\ gone = Some g /\ h g = Some n /\ n_type n = FRAGMENT /\ n_parent n = None /\ g <> p).
Proof.
  intros. inversion H; subst; [left|right; left|right; right]; eauto 12.
Qed.

Section Attach.
  Variables (s : st) (ch : id -> list id) (p d : id) (a b ins : list id) (f gone : option id) (np nd : node) (ts : list rose).
  Let h := s_heap s.
  Hypothesis WL : wfL h (s_nxt s).
  Hypothesis WT : wfT h ch.
  Hypothesis WO : wfO h ch.
  Hypothesis CH : ch p = a ++ b.
  Hypothesis Hp : h p = Some np.
  Hypothesis Hd : h d = Some nd.
  Hypothesis Op : n_owner np = Some d.
  Hypothesis Td : n_type nd = DOCUMENT.
  Hypothesis MO : mode h ch p ins f gone.
  Hypothesis ACY : forall c, In c ins -> ~ anc h c p.
  Hypothesis RT : Forall (repr h) ts.
  Hypothesis TS : map root ts = ins.
  Variable h1 : heap.
  Hypothesis U1 : unpended h h1 d gone.
  Variables (x y : id).
  Hypothesis Hx : hd_error ins = Some x.
  Hypothesis Hy : last_error ins = Some y.

  Let hA := hmod (hmod h1 x (set_prev (last_error a))) y (set_next (hd_error b)).
  Let hB := match last_error a with Some q => hmod hA q (set_next (Some x)) | None => hmod hA p (set_first (Some x)) end.
  Let hC := match hd_error b with Some q => hmod hB q (set_prev (Some y)) | None => hmod hB p (set_last (Some y)) end.
  Let hD := hpar hC p ins.

  Lemma at_ins : forall c, In c ins -> exists n, h c = Some n /\ (n_parent n = None \/ exists g ng, n_parent n = Some g /\ h g = Some ng /\ n_type ng = FRAGMENT /\ g <> p).
  Proof.
    intros c I. destruct (mode_inv _ _ _ _ _ _ MO) as [(E & _)|[(c0 & n & E & _ & _ & A1 & A2)|(g & n & E & _ & _ & A1 & A2 & A3 & A4)]]; rewrite E in I.
    - destruct I.
    - destruct I as [<-|[]]. exists n. split; auto.
    - destruct (wt_child _ _ WT _ _ I) as (m & mg & A & B & _ & C & _). exists m. split; auto. right.
      exists g, mg. repeat split; auto. congruence.
  Qed.

  Lemma at_notold : forall c, In c ins -> ~ In c (a ++ b).
  Proof.
    intros c I J. rewrite <- CH in J. destruct (wt_child _ _ WT _ _ J) as (n & _ & A & _ & _ & B & _).
    destruct (at_ins _ I) as (m & C & D). assert (m = n) by congruence; subst.
    destruct D as [D|(g & ng & D & _ & _ & E)]; congruence.
  Qed.

  Lemma at_p : ~ In p ins.
  Proof. intros I. apply (ACY _ I). constructor. Qed.

  Lemma at_nodup : NoDup ins.
  Proof.
    destruct (mode_inv _ _ _ _ _ _ MO) as [(E & _)|[(c0 & n & E & _ & _ & A1 & A2)|(g & n & E & _ & _ & A1 & A2 & A3 & A4)]]; rewrite E.
    - constructor.
    - constructor; auto. constructor.
    - apply (wt_nodup _ _ WT).
  Qed.

  Lemma at_old : forall c, In c (a ++ b) -> exists n, h c = Some n /\ n_parent n = Some p.
  Proof.
    intros c J. rewrite <- CH in J. destruct (wt_child _ _ WT _ _ J) as (n & _ & A & _ & _ & B & _). eauto.
  Qed.

  Lemma at_last : forall q, last_error a = Some q -> In q (a ++ b) /\ ~ In q ins.
  Proof.
    intros q E. assert (I : In q (a ++ b)) by (apply in_or_app; left; apply last_error_in; auto).
    split; auto. intros J. exact (at_notold _ J I).
  Qed.
  Lemma at_hd : forall q, hd_error b = Some q -> In q (a ++ b) /\ ~ In q ins.
  Proof.
    intros q E. assert (I : In q (a ++ b)) by (apply in_or_app; right; apply hd_error_in; auto).
    split; auto. intros J. exact (at_notold _ J I).
  Qed.

  Lemma at_xy : In x ins /\ In y ins.
  Proof. split; [apply hd_error_in|apply last_error_in]; auto. Qed.

  (** pointwise description *)
  Lemma at_hC : forall j n, h j = Some n -> exists n', hC j = Some n' /\ n_type n' = n_type n /\ n_attrs n' = n_attrs n /\
    n_parent n' = n_parent n /\ n_owner n' = n_owner n /\ data_eq n n' /\
    n_first n' = (if Nat.eqb j p then hd_error (a ++ ins ++ b) else n_first n) /\
    n_last n' = (if Nat.eqb j p then last_error (a ++ ins ++ b) else n_last n) /\
    n_prev n' = (if oid_eqb (hd_error ins) (Some j) then last_error a
                  else if oid_eqb (hd_error b) (Some j) then last_error (a ++ ins) else n_prev n) /\
    n_next n' = (if oid_eqb (last_error ins) (Some j) then hd_error b
                  else if oid_eqb (last_error a) (Some j) then hd_error (ins ++ b) else n_next n) /\
    n_pending n' = (if oid_eqb gone (Some j) then false else n_pending n) /\
    n_pend n' = (if Nat.eqb j d then rm_opt gone (n_pend n) else n_pend n).
  Proof.
    intros j n Hj. destruct (un_some _ _ _ _ U1 _ _ Hj) as (n1 & Hn1 & (S & L1 & L2 & L3) & DE & O1 & P1 & P2).
    destruct S as (S1 & S2 & S3 & S4). destruct DE as (D1 & D2 & D3 & D4 & D5 & D6 & D7).
    destruct (wt_ends _ _ WT _ _ Hp) as [EF EL]. rewrite CH in EF, EL. rewrite hd_error_app2 in EF. rewrite last_error_app2 in EL.
    assert (PF : j = p -> n_first n = match hd_error a with Some q => Some q | None => hd_error b end) by (intros ->; congruence).
    assert (PL : j = p -> n_last n = match last_error b with Some q => Some q | None => last_error a end) by (intros ->; congruence).
    pose proof at_last as AL. pose proof at_hd as AH. pose proof at_xy as [AX AY]. pose proof at_p as AP.
    rewrite !hd_error_app2, !last_error_app2, Hx, Hy.
    unfold hC, hB, hA, data_eq.
    destruct (last_error a) as [q|] eqn:ELa; destruct (hd_error b) as [z|] eqn:EHb.
    - destruct (hd_error a) as [a0|] eqn:EHa. 2:{ destruct a; discriminate. }
      destruct (last_error b) as [b0|] eqn:ELb. 2:{ apply last_error_none in ELb. subst. discriminate. }
      destruct (AL _ eq_refl). destruct (AH _ eq_refl).
      eexists; split; [hget|]. nproj. rewrite !oid_eqb_some, (Nat.eqb_sym x j), (Nat.eqb_sym y j), (Nat.eqb_sym q j), (Nat.eqb_sym z j).
      repeat split; try congruence; repeat neqb; auto; try congruence.
    - destruct (hd_error a) as [a0|] eqn:EHa. 2:{ destruct a; discriminate. }
      assert (b = []) by (destruct b; [auto|discriminate]). subst b. simpl last_error in *.
      destruct (AL _ eq_refl).
      eexists; split; [hget|]. nproj. rewrite !oid_eqb_some, (Nat.eqb_sym x j), (Nat.eqb_sym y j), (Nat.eqb_sym q j).
      repeat split; try congruence; repeat neqb; auto; try congruence.
    - apply last_error_none in ELa. subst a. simpl hd_error in *. destruct (AH _ eq_refl).
      destruct (last_error b) as [b0|] eqn:ELb. 2:{ apply last_error_none in ELb. subst. discriminate. }
      eexists; split; [hget|]. nproj. rewrite !oid_eqb_some, (Nat.eqb_sym x j), (Nat.eqb_sym y j), (Nat.eqb_sym z j).
      repeat split; try congruence; repeat neqb; auto; try congruence.
    - apply last_error_none in ELa. subst a. assert (b = []) by (destruct b; [auto|discriminate]). subst b. simpl hd_error. simpl last_error.
      eexists; split; [hget|]. nproj. rewrite !oid_eqb_some, (Nat.eqb_sym x j), (Nat.eqb_sym y j).
      repeat split; try congruence; repeat neqb; auto; try congruence.
  Qed.

  Lemma at_none : forall j, h j = None -> hD j = None.
  Proof.
    intros j Hj. apply (un_none _ _ _ _ U1) in Hj. unfold hD. apply hpar_none. unfold hC, hB, hA.
    destruct (last_error a); destruct (hd_error b); repeat (apply (proj2 (hmod_none _ _ _ _))); auto.
  Qed.

  Lemma at_disjoint : NoDup (flat_map nodes ts).
  Proof.
    pose proof at_nodup as NI. rewrite <- TS in NI. destruct (map_root_inj _ NI) as [N1 N2].
    rewrite Forall_forall in RT. apply NoDup_flat_map; auto.
    - intros t I. eapply repr_nodup; eauto.
    - intros t t' I I' NE z J J'.
      assert (RN : root t <> root t') by (apply N2; auto).
      apply (repr_anc _ _ (RT _ I)) in J. apply (repr_anc _ _ (RT _ I')) in J'.
      assert (In (root t) ins) by (rewrite <- TS; apply in_map; auto).
      assert (In (root t') ins) by (rewrite <- TS; apply in_map; auto).
      destruct (mode_inv _ _ _ _ _ _ MO) as [(E & _)|[(c0 & n & E & _ & _ & A1 & A2)|(g & n & E & _ & _ & A1 & A2 & A3 & A4)]]; rewrite E in H, H0.
      + destruct H.
      + destruct H as [H|[]]. destruct H0 as [H0|[]]. congruence.
      + destruct (wt_child _ _ WT _ _ H) as (m & _ & A & _ & _ & B & _).
        destruct (wt_child _ _ WT _ _ H0) as (m' & _ & A' & _ & _ & B' & _).
        exact (siblings_disjoint h ch WT g _ _ m m' A A' B B' RN z J J').
  Qed.

  Lemma at_repr : Forall (repr hC) ts.
  Proof.
    rewrite Forall_forall in *. intros t I. specialize (RT _ I). 
    assert (IT : In (root t) ins) by (rewrite <- TS; apply in_map; auto).
    destruct (at_ins _ IT) as (nt & Ht & PT).
    apply subtree_frame with (h := h) (ch := ch); auto.
    - intros n Hn. destruct (at_hC _ _ Hn) as (n' & H1 & H2 & H3 & H4 & H5 & H6 & H7 & H8 & _).
      exists n'. split; auto. assert (root t <> p) by (intros E; rewrite E in IT; exact (at_p IT)).
      apply Nat.eqb_neq in H. rewrite H in *. repeat split; auto.
    - intros j n J NJ Hj. destruct (at_hC _ _ Hj) as (n' & H1 & H2 & H3 & H4 & H5 & H6 & H7 & H8 & H9 & H10 & _).
      exists n'. split; auto.
      assert (Njp : j <> p). { intros ->. apply (ACY _ IT). auto. }
      assert (Njo : ~ In j (a ++ b)).
      { intros Q. destruct (at_old _ Q) as (m & M1 & M2). assert (m = n) by congruence; subst.
        inversion J; subst; [congruence|]. assert (p0 = p) by congruence. subst. exact (ACY _ IT H11). }
      assert (Nji : ~ In j ins).
      { intros Q. destruct (Nat.eq_dec j (root t)); [congruence|].
        destruct (mode_inv _ _ _ _ _ _ MO) as [(E & _)|[(c0 & m & E & _ & _ & A1 & A2)|(g & m & E & _ & _ & A1 & A2 & A3 & A4)]]; rewrite E in Q, IT.
        - destruct Q.
        - destruct Q as [Q|[]]. destruct IT as [IT|[]]. congruence.
        - destruct (wt_child _ _ WT _ _ Q) as (m1 & _ & A & _ & _ & B & _).
          destruct (wt_child _ _ WT _ _ IT) as (m2 & _ & A' & _ & _ & B' & _).
          assert (RN : root t <> j) by auto.
          exact (siblings_disjoint h ch WT g _ _ m2 m1 A' A B' B RN j J (anc_refl h j)). }
      apply Nat.eqb_neq in Njp. rewrite Njp in *.
      assert (Q1 : ~ In j a) by (intros Q; apply Njo; apply in_or_app; auto).
      assert (Q2 : ~ In j b) by (intros Q; apply Njo; apply in_or_app; auto).
      rewrite (not_hd _ _ Nji), (not_hd _ _ Q2) in H9. rewrite (not_last _ _ Nji), (not_last _ _ Q1) in H10.
      repeat split; auto.
  Qed.

  Lemma at_lchain : lchain hC ins (hd_error b).
  Proof.
    assert (X : forall c n, In c ins -> h c = Some n -> exists n', hC c = Some n' /\
        n_next n' = if oid_eqb (last_error ins) (Some c) then hd_error b else n_next n).
    { intros c n I Hc. destruct (at_hC _ _ Hc) as (n' & H1 & _ & _ & _ & _ & _ & _ & _ & _ & H10 & _).
      exists n'. split; auto. rewrite H10. destruct (oid_eqb (last_error ins) (Some c)); auto.
      rewrite not_last; auto. intros Q. apply (at_notold _ I). apply in_or_app; auto. }
    destruct (mode_inv _ _ _ _ _ _ MO) as [(E & _)|[(c & n & E & _ & _ & C1 & C2)|(g & n & E & _ & _ & A1 & A2 & A3 & A4)]]; rewrite E in X |- *.
    - simpl. auto.
    - simpl. split; auto. destruct (X c n) as (n' & A & B); [left; auto|auto|].
      exists n'. split; auto. rewrite B. unfold last_error. simpl. rewrite Nat.eqb_refl. auto.
    - pose proof (wt_seg _ _ WT g) as SG. pose proof (wt_nodup _ _ WT g) as ND.
      clear - SG X ND. revert SG X ND. generalize (@None id) at 1. generalize (ch g). induction l as [|c l]; simpl; intros o SG X ND; auto.
      destruct SG as [(n & A & B & C & D & E) SG]. inversion ND; subst. split.
      + destruct (X c n) as (n' & A' & B'); auto. exists n'. split; auto. rewrite B'. rewrite last_error_cons.
        destruct l as [|c' l]. { simpl. rewrite Nat.eqb_refl. auto. }
        destruct (last_error (c' :: l)) eqn:Q. 2:{ apply last_error_none in Q; discriminate. }
        rewrite oid_eqb_some. destruct (Nat.eqb_spec i c); auto. subst. exfalso. apply H1. apply last_error_in; auto.
      + eapply IHl; eauto. intros c0 n0 I0 Hc0. destruct (X c0 n0) as (n' & A' & B'); auto. exists n'. split; auto.
        rewrite B'. rewrite last_error_cons. destruct (last_error l) eqn:Q; auto.
        apply last_error_none in Q. subst. destruct I0.
  Qed.

  Lemma attach_range_exec : attach_range x y p (last_error a) (hd_error b) (withh s h1) =
    Ok tt (withh (addlog s (flat_map (log_inserted p) ts ++ [EvSubtree p])) hD).
  Proof.
    pose proof at_last as AL0. pose proof at_hd as AH0. pose proof at_old as AO0.
    assert (LV : forall j n, h j = Some n -> exists n', h1 j = Some n').
    { intros j n Hj. destruct (un_some _ _ _ _ U1 _ _ Hj) as (n1 & Hn1 & _). eauto. }
    pose proof at_xy as [AX AY]. destruct (at_ins _ AX) as (nx & Hnx & _). destruct (at_ins _ AY) as (ny & Hny & _).
    destruct (LV _ _ Hnx) as (nx1 & Hnx1). destruct (LV _ _ Hny) as (ny1 & Hny1). destruct (LV _ _ Hp) as (np1 & Hp1).
    unfold attach_range. supd. supd. fold hA.
    assert (E2 : match last_error a with Some q => upd q (set_next (Some x)) | None => upd p (set_first (Some x)) end (withh s hA) = Ok tt (withh s hB)).
    { unfold hB. destruct (last_error a) as [q|] eqn:EL.
      - destruct (AL0 _ eq_refl) as [I _]. destruct (AO0 _ I) as (nq & Hq & _). destruct (LV _ _ Hq) as (nq1 & Hq1).
        erewrite upd_ok by (rewrite withh_heap; unfold hA; hget). reflexivity.
      - erewrite upd_ok by (rewrite withh_heap; unfold hA; hget). reflexivity. }
    step E2. clear E2.
    assert (LB : forall j n, h j = Some n -> exists n', hB j = Some n').
    { intros j n Hj. destruct (LV _ _ Hj) as (n1 & Hn1). unfold hB, hA. destruct (last_error a); eexists; hget. }
    assert (E3 : match hd_error b with Some q => upd q (set_prev (Some y)) | None => upd p (set_last (Some y)) end (withh s hB) = Ok tt (withh s hC)).
    { unfold hC. destruct (hd_error b) as [q|] eqn:EL.
      - destruct (AH0 _ eq_refl) as [I _]. destruct (AO0 _ I) as (nq & Hq & _). destruct (LB _ _ Hq) as (nq1 & Hq1).
        rewrite (upd_ok (withh s hB) q nq1); auto.
      - destruct (LB _ _ Hp) as (nq1 & Hq1). rewrite (upd_ok (withh s hB) p nq1); auto. }
    step E3. clear E3.
    destruct (at_hC _ _ Hp) as (npC & HpC & _ & _ & _ & OpC & _).
    destruct (at_hC _ _ Hd) as (ndC & HdC & _).
    step (load_ok (withh s hC) p npC HpC). rewrite OpC, Op. step (deref_ok d (withh s hC)).
    step (load_ok (withh s hC) d ndC HdC).
    destruct (achain_ex s ch WL WT p) as (l & AC & LL). { exists np; auto. }
    assert (E4 : with_fuel (fun f => attach_loop f p y (Some x)) (withh s hC) =
       Ok tt (withh (addlog s (flat_map (log_inserted p) ts)) hD)).
    { unfold with_fuel. 
      assert (EX : Some x = match map root ts with [] => hd_error b | z :: _ => Some z end).
      { rewrite TS. destruct ins; inversion Hx; auto. }
      rewrite EX. rewrite (attach_loop_ok ts (withh s hC) _ p d y (hd_error b) l npC ndC); auto.
      - unfold hD. rewrite TS. reflexivity.
      - congruence.
      - eapply achain_ext; [|exact AC]. intros j n Hj. destruct (at_hC _ _ Hj) as (n' & Q1 & Q2 & Q3 & Q4 & _). eauto.
      - rewrite TS. intros r I J. apply (achain_anc _ _ _ AC) in J. exact (ACY _ I (proj1 J)).
      - apply at_repr.
      - apply at_disjoint.
      - rewrite TS. apply at_lchain.
      - destruct (at_hC _ _ Hny) as (n' & Q1 & _ & _ & _ & _ & _ & _ & _ & _ & Q2 & _). exists n'. split; auto.
        rewrite Q2. rewrite Hy, oid_eqb_refl. auto.
      - rewrite TS. intros r I E. destruct (at_hd _ E). contradiction.
      - unfold fuel_of. rewrite withh_nxt.
        assert (length (flat_map nodes ts) <= s_nxt s).
        { rewrite <- (seq_length (s_nxt s) 0). apply NoDup_incl_length. { apply at_disjoint. }
          intros j I. apply in_flat_map in I. destruct I as (t & I & J). rewrite Forall_forall in RT.
          destruct (repr_live _ _ (RT _ I) _ J) as (n & Hn). apply in_seq. specialize (WL _ _ Hn). lia. }
        lia.
      - unfold fuel_of. rewrite withh_nxt. rewrite <- (map_length root ts), TS.
        assert (length ins <= s_nxt s).
        { rewrite <- (seq_length (s_nxt s) 0). apply NoDup_incl_length. { apply at_nodup. }
          intros j I. destruct (at_ins _ I) as (n & Hn & _). apply in_seq. specialize (WL _ _ Hn). lia. }
        lia. }
    step E4. clear E4.
    assert (HpD : exists m, hD p = Some m /\ n_owner m = Some d).
    { unfold hD. eexists; split; [eapply hpar_get; eauto|]. nproj. congruence. }
    destruct HpD as (npD & HpD & OpD).
    assert (HdD : exists m, hD d = Some m).
    { unfold hD. eexists. eapply hpar_get; eauto. }
    destruct HdD as (ndD & HdD).
    erewrite bind_ok; [|apply load_ok; rewrite withh_heap; exact HpD]. cbv beta. rewrite OpD.
    unfold subtree_event. rewrite (bind_ok _ _ _ _ _ _ _ _ (deref_ok d _)).
    erewrite bind_ok; [|apply load_ok; rewrite withh_heap; exact HdD].
    unfold fire. f_equal. unfold withh, addlog. simpl. rewrite app_assoc. reflexivity.
  Qed.
End Attach.
