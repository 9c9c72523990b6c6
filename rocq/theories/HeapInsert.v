(** The second half of insertBefore: what do_insert does. *)
From Coq Require Import List Arith NArith Bool Lia ZifyBool ZifyNat ZifyN.
From Verif Require Import Base HeapModel HeapSpec HeapInv HeapExec HeapTree HeapSplice HeapLoops HeapEdit HeapAttach.
Import ListNotations.
Local Open Scope dom_scope.

Definition ref_up (n : node) : node := set_ref (u32 (n_ref n + 1)) n.

Lemma node_ref_ok : forall s i n, s_heap s i = Some n -> node_ref i s = Ok tt (withh s (hmod (s_heap s) i ref_up)).
Proof. intros. unfold node_ref. erewrite upd_ok; eauto. Qed.

(** Forests. *)
Lemma forest_exists : forall h ch nx, wfL h nx -> wfT h ch -> forall l, (forall i, In i l -> live h i) ->
  exists ts, Forall (repr h) ts /\ map root ts = l.
Proof.
  intros h ch nx WL WT. induction l as [|i l]; intros H.
  - exists []. split; auto.
  - destruct IHl as (ts & A & B). { intros; apply H; right; auto. }
    destruct (tree_exists _ _ _ WL WT i) as (t & R & E). { apply H; left; auto. }
    exists (t :: ts). split; [constructor; auto|]. simpl. congruence.
Qed.

Lemma unpended_wfT : forall h h1 ch d gone, unpended h h1 d gone -> wfT h ch -> wfT h1 ch.
Proof.
  intros h h1 ch d gone U W.
  assert (S : forall j n, h j = Some n -> exists n', h1 j = Some n' /\ n_type n' = n_type n /\ n_parent n' = n_parent n /\
     n_prev n' = n_prev n /\ n_next n' = n_next n /\ n_first n' = n_first n /\ n_last n' = n_last n /\ n_attrs n' = n_attrs n).
  { intros j n H. destruct (un_some _ _ _ _ U _ _ H) as (n' & A & ((B1 & B2 & B3 & B4) & B5 & B6 & B7) & _).
    exists n'. repeat split; auto. }
  assert (I : forall j n', h1 j = Some n' -> exists n, h j = Some n /\ n_type n' = n_type n /\ n_parent n' = n_parent n /\
     n_prev n' = n_prev n /\ n_next n' = n_next n /\ n_first n' = n_first n /\ n_last n' = n_last n /\ n_attrs n' = n_attrs n).
  { intros j n' H. destruct (h j) as [n|] eqn:E.
    - destruct (S _ _ E) as (m & A & B). assert (m = n') by congruence; subst. eauto.
    - rewrite (un_none _ _ _ _ U _ E) in H. discriminate. }
  constructor.
  - intros i H. apply (wt_dead _ _ W). destruct (h i) eqn:E; auto. destruct (S _ _ E) as (m & A & B). congruence.
  - intros p n' H. destruct (I _ _ H) as (n & A & B1 & B2 & B3 & B4 & B5 & B6 & B7). destruct (wt_ends _ _ W _ _ A). split; congruence.
  - intros p. eapply seg_ext; [|apply (wt_seg _ _ W)]. intros c n _ Hc. destruct (S _ _ Hc) as (n' & A & B1 & B2 & B3 & B4 & B5 & B6 & B7).
    exists n'. split; auto. repeat split; auto.
  - apply (wt_nodup _ _ W).
  - intros i n' p H P. destruct (I _ _ H) as (n & A & B1 & B2 & B3 & B4 & B5 & B6 & B7).
    destruct (wt_parent _ _ W i n p) as (np & N1 & N2 & N3); auto. { congruence. }
    destruct (S _ _ N1) as (np' & C & D1 & D2 & D3 & D4 & D5 & D6 & D7). exists np'. split; auto.
    rewrite B1, D1, D7. auto.
  - intros e n' H. destruct (I _ _ H) as (n & A & B1 & B2 & B3 & B4 & B5 & B6 & B7).
    destruct (wt_attrs _ _ W _ _ A) as (X & Y & Z). rewrite B7, B1. split; auto. split; auto.
    intros a Ia. destruct (Z _ Ia) as (na & N1 & N2 & N3). destruct (S _ _ N1) as (na' & C & D1 & D2 & _).
    exists na'. repeat split; congruence.
  - intros i [n' H]. destruct (I _ _ H) as (n & A & _). eapply rooted_ext; [|apply (wt_rooted _ _ W); exists n; eauto].
    intros j m _ Hj. destruct (S _ _ Hj) as (m' & C & D1 & D2 & _). eauto.
Qed.

Section Insert.
  Variables (s : st) (ch : id -> list id) (p c d : id) (a b : list id) (np nc nd : node).
  Let h := s_heap s.
  Hypothesis WL : wfL h (s_nxt s).
  Hypothesis WT : wfT h ch.
  Hypothesis WO : wfO h ch.
  Hypothesis CH : ch p = a ++ b.
  Hypothesis Hp : h p = Some np.
  Hypothesis Hc : h c = Some nc.
  Hypothesis Hd : h d = Some nd.
  Hypothesis Op : n_owner np = Some d.
  Hypothesis Td : n_type nd = DOCUMENT.
  Hypothesis Pc : n_parent nc = None.
  Hypothesis NSc : ~ spent nc.
  Hypothesis NDc : n_type nc <> DOCUMENT.
  Hypothesis Oc : n_owner nc = Some d \/ (n_type nc = DOCTYPE /\ n_owner nc = None).
  Hypothesis ACY : ~ anc h c p.

  Lemma in_remove_pending : exists h1, remove_pending c s = Ok tt (withh s h1) /\ unpended h h1 d (Some c).
  Proof.
    destruct Oc as [O|[T O]].
    - destruct (wo_top _ _ WO _ _ _ Hc Pc NDc O) as [P|[P _]]; [|contradiction].
      eapply remove_pending_some; eauto.
    - exists h. split.
      + unfold remove_pending. step (load_ok _ _ _ Hc). rewrite O. destruct s; reflexivity.
      + constructor; auto. intros j n Hj. exists n. split; auto. split; [apply link_eq_refl|]. split; [apply data_eq_refl|].
        split; auto. split.
        * destruct (oid_eqb (Some c) (Some j)) eqn:E; auto. apply oid_eqb_eq in E. inversion E; subst j.
          assert (n = nc) by congruence; subst. destruct (n_pending nc) eqn:Q; auto.
          destruct (wo_pending _ _ WO _ _ Hc Q) as (_ & d' & nd' & Q1 & _). congruence.
        * destruct (Nat.eqb j d) eqn:E; auto. simpl. rewrite remove_id_notin; auto. intros I.
          destruct (wo_pend _ _ WO _ _ _ Hj I) as (m & M1 & M2 & _). unfold h in *. congruence.
  Qed.

  (** The neighbours read from the heap. *)
  Lemma in_ref : forall h1, unpended h h1 d (Some c) ->
    forall k K, (forall pv, pv = last_error a -> k pv (hd_error b) (withh s h1) = K) ->
    (nn <- load p ;;
     match hd_error b with
     | None => k (n_last nn) None
     | Some r => nr <- load r ;; k (n_prev nr) (Some r)
     end) (withh s h1) = K :> res st unit.
  Proof.
    intros h1 U k K HK. destruct (un_some _ _ _ _ U _ _ Hp) as (np1 & Hp1 & (_ & _ & LA & _) & _).
    rewrite (bind_ok _ _ _ _ _ _ np1 (withh s h1)) by (apply load_ok; auto).
    destruct (hd_error b) as [r|] eqn:E.
    - destruct b as [|r' b']; inversion E; subst r'.
      destruct (wt_links _ _ WT p a r b' CH) as (nr & R1 & R2 & R3 & R4 & R5).
      destruct (un_some _ _ _ _ U _ _ R1) as (nr1 & Hr1 & ((_ & _ & S3 & _) & _) & _).
      rewrite (bind_ok _ _ _ _ _ _ nr1 (withh s h1)) by (apply load_ok; auto).
      apply HK. congruence.
    - assert (b = []) by (destruct b; [auto|discriminate]). apply HK.
      destruct (wt_ends _ _ WT _ _ Hp) as [_ EL]. rewrite CH, H, app_nil_r in EL. congruence.
  Qed.

  Section One.
    Variable t : rose.
    Hypothesis NF : n_type nc <> FRAGMENT.
    Hypothesis PE : type_permitted (n_type np) (n_type nc) = true.
    Hypothesis R : repr h t.
    Hypothesis Rt : root t = c.

    Lemma in_mode_one : mode h ch p [c] None (Some c).
    Proof. apply (ModeOne h ch p c nc); auto. Qed.

    Lemma in_doctype : n_type nc = DOCTYPE -> n_type np = DOCUMENT /\ p = d.
    Proof.
      intros T. rewrite T in PE. assert (n_type np = DOCUMENT) by (destruct (n_type np); simpl in PE; congruence).
      split; auto. destruct (wo_doc _ _ WO _ _ Hp H). congruence.
    Qed.

    Lemma do_insert_one : exists h', spliced h h' p d a [] b [c] None (Some c) /\
      do_insert p c (hd_error b) s = Ok c (withh (addlog s (log_inserted p t ++ [EvSubtree p])) (hmod h' c ref_up)).
    Proof.
      destruct in_remove_pending as (h1 & E1 & U). pose proof in_mode_one as MO.
      assert (AC1 : forall x, In x [c] -> ~ anc h x p) by (intros x [<-|[]]; auto).
      assert (RT : Forall (repr h) [t]) by (constructor; auto).
      assert (TS : map root [t] = [c]) by (simpl; congruence).
      pose proof (attach_range_exec s ch p d a b [c] None (Some c) np nd [t] WL WT CH Hp Hd Op MO AC1 RT TS h1 U c c eq_refl eq_refl) as EX.
      pose proof (at_hC s ch p d a b [c] None (Some c) np [t] WT CH Hp MO AC1 TS h1 U c c eq_refl eq_refl) as GC.
      pose proof (at_none s p d a b [c] (Some c) h1 U c c) as GN.
      fold h in GC, GN.
      set (hC := match hd_error b with Some q => _ | None => _ end) in *.
      set (hD := hpar hC p [c]) in *.
      set (hE := if ntype_eqb (n_type nc) DOCTYPE then hmod hD c (set_owner (Some p)) else hD).
      assert (GE : forall j n, h j = Some n -> exists n', hE j = Some n' /\ n_type n' = n_type n /\ n_attrs n' = n_attrs n /\
        n_parent n' = (if Nat.eqb j c then Some p else n_parent n) /\
        n_owner n' = (if Nat.eqb j c then Some d else n_owner n) /\ data_eq n n' /\
        n_first n' = (if Nat.eqb j p then hd_error (a ++ [c] ++ b) else n_first n) /\
        n_last n' = (if Nat.eqb j p then last_error (a ++ [c] ++ b) else n_last n) /\
        n_prev n' = (if oid_eqb (hd_error [c]) (Some j) then last_error a
                      else if oid_eqb (hd_error b) (Some j) then last_error (a ++ [c]) else n_prev n) /\
        n_next n' = (if oid_eqb (last_error [c]) (Some j) then hd_error b
                      else if oid_eqb (last_error a) (Some j) then hd_error ([c] ++ b) else n_next n) /\
        n_pending n' = (if oid_eqb (Some c) (Some j) then false else n_pending n) /\
        n_pend n' = (if Nat.eqb j d then rm_opt (Some c) (n_pend n) else n_pend n)).
      { intros j n Hj. destruct (GC _ _ Hj) as (m & C1 & C2 & C3 & C4 & C5 & (D1 & D2 & D3 & D4 & D5 & D6 & D7) & C7 & C8 & C9 & C10 & C11 & C12).
        assert (GD : hD j = Some (if Nat.eqb j c then set_parent (Some p) m else m)).
        { unfold hD. rewrite (hpar_get _ _ _ _ _ C1). unfold mem. cbn [existsb]. rewrite orb_false_r. reflexivity. }
        assert (OJ : n_type nc <> DOCTYPE -> j = c -> n_owner n = Some d).
        { intros NT ->. assert (n = nc) by congruence; subst. destruct Oc as [|[]]; congruence. }
        assert (OT : n_type nc = DOCTYPE -> p = d) by (intros T; apply (in_doctype T)).
        clear EX. unfold hE. destruct (ntype_eqb (n_type nc) DOCTYPE) eqn:ET.
        - apply ntype_eqb_eq in ET. specialize (OT ET). eexists; split; [hget|]. unfold data_eq. nproj. rewrite <- OT in *.
          repeat split; auto; try congruence; repeat neqb; auto; try congruence.
        - apply ntype_eqb_neq in ET. eexists; split; [exact GD|]. unfold data_eq. nproj.
          repeat split; auto; try congruence; repeat neqb; auto; try congruence. rewrite C5. auto. }
      exists hE. split.
      - constructor.
        + intros j Hj. specialize (GN _ Hj). unfold hE. destruct (ntype_eqb (n_type nc) DOCTYPE); auto. apply hmod_none; auto.
        + intros j n Hj. destruct (GE _ _ Hj) as (n' & C1 & C2 & C3 & C4 & C5 & C6 & C7 & C8 & C9 & C10 & C11 & C12).
          exists n'. unfold mem. cbn [existsb]. rewrite orb_false_r, app_nil_r. repeat split; auto.
        + intros j n n' Hj Hj'. destruct (GE _ _ Hj) as (n2 & C1 & C2 & C3 & C4 & C5 & C6 & _).
          assert (n2 = n') by congruence; subst. split; auto. discriminate.
      - unfold do_insert. step E1.
        destruct (un_some _ _ _ _ U _ _ Hc) as (nc1 & Hc1 & ((TY & _) & _) & _).
        rewrite (bind_ok _ _ _ _ _ _ nc1 (withh s h1)) by (apply load_ok; auto).
        rewrite TY. destruct (ntype_eqb (n_type nc) FRAGMENT) eqn:EF. { apply ntype_eqb_eq in EF; contradiction. }
        erewrite bind_ok.
        2:{ apply (in_ref h1 U (fun pv nx => attach c p pv nx)). intros pv ->. unfold attach. exact EX. }
        cbv beta.
        destruct (GC _ _ Hp) as (npC & HpC & TpC & _). destruct (GC _ _ Hc) as (ncC & HcC & _).
        assert (HpD : exists m, hD p = Some m /\ n_type m = n_type np).
        { eexists; split; [eapply hpar_get; eauto|]. nproj. auto. }
        destruct HpD as (npD & HpD & TpD).
        assert (HcD : exists m, hD c = Some m) by (eexists; eapply hpar_get; eauto). destruct HcD as (ncD & HcD).
        erewrite bind_ok; [|apply load_ok; rewrite withh_heap; exact HpD]. cbv beta.
        assert (EB : ntype_eqb (n_type npD) DOCUMENT && ntype_eqb (n_type nc) DOCTYPE = ntype_eqb (n_type nc) DOCTYPE).
        { rewrite TpD. destruct (ntype_eqb (n_type nc) DOCTYPE) eqn:ET; [|apply andb_false_r].
          apply ntype_eqb_eq in ET. destruct (in_doctype ET) as [Q _]. rewrite Q. reflexivity. }
        rewrite EB. set (s2 := withh _ hD).
        assert (E3 : when (ntype_eqb (n_type nc) DOCTYPE) (upd c (set_owner (Some p))) s2 = Ok tt (withh s2 hE)).
        { unfold hE. destruct (ntype_eqb (n_type nc) DOCTYPE); cbn [when]; [|reflexivity].
          erewrite upd_ok by exact HcD. reflexivity. }
        step E3. assert (HcE : exists m, hE c = Some m).
        { destruct (GE _ _ Hc) as (m & M & _). eauto. }
        destruct HcE as (ncE & HcE).
        erewrite bind_ok; [|eapply node_ref_ok; exact HcE]. unfold s2. cbn [flat_map]. rewrite app_nil_r. reflexivity.
    Qed.
  End One.

  Section Frag.
    Hypothesis TF : n_type nc = FRAGMENT.
    Variable ts : list rose.
    Hypothesis RT : Forall (repr h) ts.
    Hypothesis TS : map root ts = ch c.

    Lemma in_frag_ne : c <> p.
    Proof. intros ->. apply ACY. constructor. Qed.

    Lemma in_frag_acy : forall x, In x (ch c) -> ~ anc h x p.
    Proof.
      intros x I A. apply ACY. eapply anc_trans; [|exact A].
      destruct (wt_child _ _ WT _ _ I) as (n & _ & B & _ & _ & P & _). econstructor; eauto. constructor.
    Qed.

    Lemma in_mode_frag : mode h ch p (ch c) (Some c) (Some c).
    Proof. apply (ModeFrag h ch p c nc); auto. apply in_frag_ne. Qed.

    Lemma in_all_permitted : forall h1, unpended h h1 d (Some c) -> exists v,
      with_fuel (fun f => all_permitted f p (hd_error (ch c))) (withh s h1) = Ok v (withh s h1) /\
      (v = true <-> forall x, In x (ch c) -> permitted s ch p x).
    Proof.
      intros h1 U. pose proof (unpended_wfT _ _ _ _ _ U WT) as WT1.
      assert (WL1 : wfL h1 (s_nxt s)).
      { intros i n' Hi. destruct (h i) as [n|] eqn:E. { eapply WL; eauto. } rewrite (un_none _ _ _ _ U _ E) in Hi; discriminate. }
      destruct (all_permitted_ok (withh s h1) ch WL1 WT1 (ch c) p (hd_error (ch c)) (fuel_of (withh s h1))) as (v & E & V).
      - destruct (un_some _ _ _ _ U _ _ Hp) as (n' & A & _). exists n'; auto.
      - eapply seg_fwd. apply (wt_seg _ _ WT1).
      - pose proof (ch_length s ch WL WT c). unfold fuel_of. rewrite withh_nxt. lia.
      - exists v. split; auto. rewrite V.
        assert (X : forall x, permitted (withh s h1) ch p x <-> permitted s ch p x).
        { assert (T : forall j n, h j = Some n -> exists n', h1 j = Some n' /\ n_type n' = n_type n).
          { intros j n Hj. destruct (un_some _ _ _ _ U _ _ Hj) as (n' & A & ((B & _) & _) & _). eauto. }
          assert (T' : forall j n', h1 j = Some n' -> exists n, h j = Some n /\ n_type n' = n_type n).
          { intros j n' Hj. destruct (h j) as [n|] eqn:E1. 2:{ rewrite (un_none _ _ _ _ U _ E1) in Hj; discriminate. }
            destruct (T _ _ E1) as (m & A & B). exists n. split; congruence. }
          intros x. unfold permitted. rewrite withh_heap. split; intros (n1 & n2 & A1 & A2 & A3 & A4).
          - destruct (T' _ _ A1) as (m1 & B1 & C1). destruct (T' _ _ A2) as (m2 & B2 & C2). exists m1, m2.
            rewrite C1, C2 in *. split; auto. split; auto. split; auto. intros Q1 Q2 y ny I Hy.
            destruct (T _ _ Hy) as (ny' & D1 & D2). rewrite <- D2. eauto.
          - destruct (T _ _ A1) as (m1 & B1 & C1). destruct (T _ _ A2) as (m2 & B2 & C2). exists m1, m2.
            rewrite C1, C2 in *. split; auto. split; auto. split; auto. intros Q1 Q2 y ny I Hy.
            destruct (T' _ _ Hy) as (ny' & D1 & D2). rewrite D2. eauto. }
        split; intros Q x I; apply X; auto.
    Qed.

    Lemma do_insert_rejected : ~ (forall x, In x (ch c) -> permitted s ch p x) ->
      exists h1, unpended h h1 d (Some c) /\ do_insert p c (hd_error b) s = Exc HIERARCHY_REQUEST_ERR (withh s h1).
    Proof.
      intros NP. destruct in_remove_pending as (h1 & E1 & U). exists h1. split; auto.
      unfold do_insert. step E1.
      destruct (un_some _ _ _ _ U _ _ Hc) as (nc1 & Hc1 & ((TY & _) & FI & LA & _) & _).
      rewrite (bind_ok _ _ _ _ _ _ nc1 (withh s h1)) by (apply load_ok; auto).
      rewrite TY, TF. cbn [ntype_eqb]. destruct (wt_ends _ _ WT _ _ Hc) as [EF EL].
      destruct (in_all_permitted h1 U) as (v & EV & V). rewrite FI, EF.
      apply bind_exc. step EV. destruct v; [exfalso; apply NP; apply V; auto|]. reflexivity.
    Qed.

    Lemma do_insert_frag : (forall x, In x (ch c) -> permitted s ch p x) ->
      exists h', spliced h h' p d a [] b (ch c) (Some c) (Some c) /\
      do_insert p c (hd_error b) s =
        Ok c (withh (addlog s (match ch c with [] => [] | _ => flat_map (log_inserted p) ts ++ [EvSubtree p] end)) (hmod h' c ref_up)).
    Proof.
      intros PM. destruct in_remove_pending as (h1 & E1 & U). pose proof in_mode_frag as MO.
      destruct (wt_ends _ _ WT _ _ Hc) as [EF EL].
      destruct (un_some _ _ _ _ U _ _ Hc) as (nc1 & Hc1 & ((TY & _) & FI & LA & _) & _).
      destruct (in_all_permitted h1 U) as (v & EV & V). assert (v = true) by (apply V; auto). subst v.
      assert (OW : forall j n, In j (ch c) -> h j = Some n -> n_owner n = Some d).
      { intros j n I Hj. destruct (wt_child _ _ WT _ _ I) as (m & mc & M1 & M2 & _ & M3 & _).
        assert (m = n) by congruence; subst m. rewrite (wo_child _ _ WO _ _ _ _ Hj M3 Hc). destruct Oc as [|[]]; congruence. }
      destruct (hd_error (ch c)) as [x|] eqn:Hx.
      - destruct (last_error (ch c)) as [y|] eqn:Hy. 2:{ apply last_error_none in Hy. rewrite Hy in Hx; discriminate. }
        pose proof (attach_range_exec s ch p d a b (ch c) (Some c) (Some c) np nd ts WL WT CH Hp Hd Op MO in_frag_acy RT TS h1 U x y Hx Hy) as EX.
        pose proof (at_hC s ch p d a b (ch c) (Some c) (Some c) np ts WT CH Hp MO in_frag_acy TS h1 U x y Hx Hy) as GC.
        pose proof (at_none s p d a b (ch c) (Some c) h1 U x y) as GN.
        fold h in GC, GN.
        set (hC := match hd_error b with Some q => _ | None => _ end) in *.
        set (hD := hpar hC p (ch c)) in *.
        set (hE := hmod (hmod hD c (set_first None)) c (set_last None)).
        assert (GE : forall j n, h j = Some n -> exists n', hE j = Some n' /\ n_type n' = n_type n /\ n_attrs n' = n_attrs n /\
          n_parent n' = (if mem j (ch c) then Some p else n_parent n) /\
          n_owner n' = n_owner n /\ data_eq n n' /\
          n_first n' = (if Nat.eqb j p then hd_error (a ++ ch c ++ b) else if Nat.eqb j c then None else n_first n) /\
          n_last n' = (if Nat.eqb j p then last_error (a ++ ch c ++ b) else if Nat.eqb j c then None else n_last n) /\
          n_prev n' = (if oid_eqb (hd_error (ch c)) (Some j) then last_error a
                        else if oid_eqb (hd_error b) (Some j) then last_error (a ++ ch c) else n_prev n) /\
          n_next n' = (if oid_eqb (last_error (ch c)) (Some j) then hd_error b
                        else if oid_eqb (last_error a) (Some j) then hd_error (ch c ++ b) else n_next n) /\
          n_pending n' = (if oid_eqb (Some c) (Some j) then false else n_pending n) /\
          n_pend n' = (if Nat.eqb j d then rm_opt (Some c) (n_pend n) else n_pend n)).
        { pose proof in_frag_ne as NE.
          intros j n Hj. destruct (GC _ _ Hj) as (m & C1 & C2 & C3 & C4 & C5 & (D1 & D2 & D3 & D4 & D5 & D6 & D7) & C7 & C8 & C9 & C10 & C11 & C12).
          assert (GD : hD j = Some (if mem j (ch c) then set_parent (Some p) m else m)).
          { unfold hD. rewrite (hpar_get _ _ _ _ _ C1). reflexivity. }
          unfold hE. eexists; split; [hget|]. unfold data_eq. nproj. rewrite C4.
          repeat split; auto; try (rewrite C7; repeat neqb; auto; congruence); try (rewrite C8; repeat neqb; auto; congruence). }
        exists hE. split.
        + constructor.
          * intros j Hj. unfold hE. apply hmod_none. apply hmod_none. auto.
          * intros j n Hj. destruct (GE _ _ Hj) as (n' & C1 & C2 & C3 & C4 & C5 & C6 & C7 & C8 & C9 & C10 & C11 & C12).
            exists n'. rewrite app_nil_r. cbn [mem existsb]. split; auto. split; auto. split; auto. split; auto.
            rewrite oid_eqb_some, (Nat.eqb_sym c j). split; auto. split; auto. split; [intros; split; auto|].
            split; [|split; auto; rewrite C11, oid_eqb_some, (Nat.eqb_sym c j); auto].
            rewrite C5. destruct (mem j (ch c)) eqn:M; auto. apply mem_in in M. eapply OW; eauto.
          * intros j n n' Hj Hj'. destruct (GE _ _ Hj) as (n2 & C1 & C2 & C3 & C4 & C5 & C6 & _).
            assert (n2 = n') by congruence; subst. split; auto. discriminate.
        + unfold do_insert. step E1.
          rewrite (bind_ok _ _ _ _ _ _ nc1 (withh s h1)) by (apply load_ok; auto).
          rewrite TY, TF. cbn [ntype_eqb]. rewrite FI, LA, EF, EL.
          set (s2 := withh (addlog s (flat_map (log_inserted p) ts ++ [EvSubtree p])) hE).
          assert (HD : forall j n, h j = Some n -> exists n', hD j = Some n' /\ n_type n' = n_type n).
          { intros j n Hj. destruct (GC _ _ Hj) as (m & C1 & C2 & _). eexists; split; [eapply hpar_get; eauto|]. nproj. auto. }
          destruct (HD _ _ Hc) as (ncD & HcD & _).
          rewrite (bind_ok _ _ _ _ _ _ tt s2).
          2:{ step EV. cbn [check]. rewrite bind_ret. step (deref_ok y (withh s h1)).
              rewrite <- bind_assoc.
              erewrite bind_ok.
              2:{ apply (in_ref h1 U (fun pv nx => attach_range x y p pv nx)). intros pv ->. exact EX. }
              cbv beta. supd. erewrite upd_ok by (rewrite withh_heap; hget). reflexivity. }
          destruct (GE _ _ Hp) as (npE & HpE & TpE & _). destruct (GE _ _ Hc) as (ncE & HcE & _).
          erewrite bind_ok; [|apply load_ok; exact HpE]. cbv beta. cbn [ntype_eqb]. rewrite andb_false_r. cbn [when].
          rewrite bind_ret. erewrite bind_ok; [|eapply node_ref_ok; exact HcE].
          destruct (ch c); [discriminate|]. reflexivity.
      - assert (CE : ch c = []) by (destruct (ch c); [auto|discriminate]).
        exists h1. split.
        + constructor.
          * apply (un_none _ _ _ _ U).
          * intros j n Hj. destruct (un_some _ _ _ _ U _ _ Hj) as (n' & A & ((S1 & S2 & S3 & S4) & L1 & L2 & L3) & DE & O1 & P1 & P2).
            exists n'. rewrite CE. simpl (last_error []). cbn [mem existsb hd_error oid_eqb opt_eqb]. rewrite !app_nil_r, app_nil_l.
            destruct (wt_ends _ _ WT _ _ Hj) as [JF JL].
            split; auto. split; auto. split; auto. split; auto.
            assert (JP : j = p -> n_first n = hd_error (a ++ b) /\ n_last n = last_error (a ++ b)) by (intros ->; rewrite JF, JL, CH; auto).
            assert (JC : j = c -> n_first n = None /\ n_last n = None) by (intros ->; rewrite JF, JL, CE; auto).
            split; [|split].
            { destruct (Nat.eqb_spec j p); [destruct (JP e); congruence|]. destruct (Nat.eqb_spec c j); [destruct JC; auto; congruence|auto]. }
            { destruct (Nat.eqb_spec j p); [destruct (JP e); congruence|]. destruct (Nat.eqb_spec c j); [destruct JC; auto; congruence|auto]. }
            split; [|split; auto].
            intros _. split.
            { destruct (oid_eqb (hd_error b) (Some j)) eqn:E; auto. apply oid_eqb_eq in E.
              destruct b as [|r b']; inversion E; subst r.
              destruct (wt_links _ _ WT p a j b' CH) as (nr & R1 & R2 & R3 & R4 & R5). congruence. }
            { destruct (oid_eqb (last_error a) (Some j)) eqn:E; auto. apply oid_eqb_eq in E.
              apply last_error_split in E. destruct E as [a' ->]. rewrite <- app_assoc in CH. simpl in CH.
              destruct (wt_links _ _ WT p a' j b CH) as (nr & R1 & R2 & R3 & R4 & R5). rewrite if_same. congruence. }
          * intros j n n' Hj Hj'. destruct (un_some _ _ _ _ U _ _ Hj) as (n2 & A & _ & DE & _).
            assert (n2 = n') by congruence; subst. split; auto. discriminate.
        + unfold do_insert. step E1.
          rewrite (bind_ok _ _ _ _ _ _ nc1 (withh s h1)) by (apply load_ok; auto).
          rewrite TY, TF. cbn [ntype_eqb]. rewrite FI, EF.
          rewrite (bind_ok _ _ _ _ _ _ tt (withh s h1)).
          2:{ step EV. reflexivity. }
          destruct (un_some _ _ _ _ U _ _ Hp) as (np1 & Hp1 & _).
          rewrite (bind_ok _ _ _ _ _ _ np1 (withh s h1)) by (apply load_ok; auto).
          cbn [ntype_eqb]. rewrite andb_false_r. cbn [when]. rewrite bind_ret.
          erewrite bind_ok; [|eapply node_ref_ok; exact Hc1]. rewrite CE, addlog_nil. reflexivity.
    Qed.
  End Frag.
End Insert.
