(** What the last part of replaceChild does to the heap. *)
From Coq Require Import List Arith NArith Bool Lia ZifyBool ZifyNat ZifyN.
From Verif Require Import Base HeapModel HeapSpec HeapInv HeapExec HeapTree HeapSplice HeapLoops HeapEdit HeapAttach HeapInsert HeapFrame HeapOps.
Import ListNotations.
Local Open Scope dom_scope.

Lemma reparent_loop_ok : forall l s f p last next,
  lchain (s_heap s) l next ->
  (exists nl, s_heap s last = Some nl /\ n_next nl = next) ->
  (forall r, In r l -> next <> Some r) -> length l <= f ->
  reparent_loop f (Some p) last (match l with [] => next | x :: _ => Some x end) s =
    Ok tt (withh s (hpar (s_heap s) p l)).
Proof.
  induction l as [|x l]; intros s f p last next LC (nl & Hl & Nl) NN F.
  - cbn [hpar]. destruct next as [y|].
    + destruct f; cbn [reparent_loop]; step (load_ok _ _ _ Hl); rewrite Nl, oid_eqb_refl; destruct s; reflexivity.
    + destruct f; destruct s; reflexivity.
  - destruct f as [|f]; [simpl in F; lia|]. cbn [reparent_loop hpar].
    step (load_ok _ _ _ Hl). rewrite Nl.
    assert (E : oid_eqb (Some x) next = false).
    { apply oid_eqb_neq. intros E. apply (NN x); auto. left; auto. }
    rewrite E. destruct LC as [(n & Hn & Nn) LC]. step (upd_ok _ _ _ (set_parent (Some p)) Hn).
    set (h1 := hmod (s_heap s) x (set_parent (Some p))).
    assert (LV : forall j m, s_heap s j = Some m -> exists m', h1 j = Some m' /\ n_next m' = n_next m).
    { intros j m Hj. unfold h1. eexists; split; [hget|]. nproj. auto. }
    destruct (LV _ _ Hn) as (n1 & Hn1 & Nn1).
    rewrite (bind_ok _ _ _ _ _ _ n1 (withh s h1)) by (apply load_ok; exact Hn1).
    rewrite Nn1, Nn. rewrite (IHl (withh s h1) f p last next); auto.
    + eapply lchain_ext; [|exact LC]. intros j m _ Hj. apply LV; auto.
    + destruct (LV _ _ Hl) as (nl1 & A & B). exists nl1. split; auto. congruence.
    + intros r I. apply NN. right; auto.
    + simpl in F; lia.
Qed.

Section Replace.
  Variables (s : st) (ch : id -> list id) (p c d old : id) (a b ins : list id) (f : option id) (np nc nd no : node).
  Let h := s_heap s.
  Hypothesis WL : wfL h (s_nxt s).
  Hypothesis WT : wfT h ch.
  Hypothesis WO : wfO h ch.
  Hypothesis CH : ch p = a ++ old :: b.
  Hypothesis Hp : h p = Some np.
  Hypothesis Hc : h c = Some nc.
  Hypothesis Hd : h d = Some nd.
  Hypothesis Ho : h old = Some no.
  Hypothesis Op : n_owner np = Some d.
  Hypothesis Td : n_type nd = DOCUMENT.
  Hypothesis Pc : n_parent nc = None.
  Hypothesis NSc : ~ spent nc.
  Hypothesis NDc : n_type nc <> DOCUMENT.
  Hypothesis Oc : n_owner nc = Some d.
  Hypothesis ACY : ~ anc h c p.
  Hypothesis K : (f = None /\ ins = [c] /\ n_type nc <> FRAGMENT) \/ (f = Some c /\ ins = ch c /\ n_type nc = FRAGMENT).
  Variables (x y : id).
  Hypothesis Hx : hd_error ins = Some x.
  Hypothesis Hy : last_error ins = Some y.

  Lemma rp_mode : mode h ch p ins f (Some c).
  Proof.
    destruct K as [(-> & -> & T)|(-> & -> & T)].
    - apply (ModeOne h ch p c nc); auto.
    - apply (ModeFrag h ch p c nc); auto. intros ->. apply ACY. constructor.
  Qed.

  Lemma rp_acy : forall z, In z ins -> ~ anc h z p.
  Proof.
    destruct K as [(-> & -> & T)|(-> & -> & T)].
    - intros z [<-|[]]; auto.
    - intros z I A. apply ACY. eapply anc_trans; [|exact A].
      destruct (wt_child _ _ WT _ _ I) as (n & _ & B & _ & _ & P & _). econstructor; eauto. constructor.
  Qed.

  Lemma rp_ins : forall z, In z ins -> exists n, h z = Some n /\ n_parent n <> Some p /\ n_owner n = Some d /\ z <> p /\ ~ In z (a ++ old :: b).
  Proof.
    intros z I. destruct (HeapAttach.at_ins s ch p ins f (Some c) WT rp_mode z I) as (n & A & B). fold h in A.
    assert (NP : n_parent n <> Some p). { destruct B as [B|(g & ng & B & _ & _ & C)]; congruence. }
    exists n. split; auto. split; auto. split; [|split].
    - destruct K as [(E1 & E2 & T)|(E1 & E2 & T)]; rewrite E2 in I.
      + destruct I as [<-|[]]. congruence.
      + destruct (wt_child _ _ WT _ _ I) as (m & _ & M1 & _ & _ & M2 & _). fold h in A. assert (m = n) by congruence; subst.
        rewrite (wo_child _ _ WO _ _ _ _ A M2 Hc). auto.
    - intros ->. apply (rp_acy _ I). constructor.
    - intros J. rewrite <- CH in J. destruct (wt_child _ _ WT _ _ J) as (m & _ & M1 & _ & _ & M2 & _). fold h in A. congruence.
  Qed.

  Lemma rp_old : forall z, In z (a ++ old :: b) -> exists n, h z = Some n /\ n_parent n = Some p.
  Proof.
    intros z J. rewrite <- CH in J. destruct (wt_child _ _ WT _ _ J) as (n & _ & A & _ & _ & B & _). eauto.
  Qed.

  Lemma rp_nodup : NoDup (a ++ old :: b).
  Proof. rewrite <- CH. apply (wt_nodup _ _ WT). Qed.

  Lemma rp_last : forall q, last_error a = Some q -> In q (a ++ old :: b) /\ ~ In q ins /\ q <> old /\ q <> p /\ q <> c.
  Proof.
    intros q E. assert (IA : In q a) by (apply last_error_in; auto).
    assert (I : In q (a ++ old :: b)) by (apply in_or_app; auto).
    split; auto. split. { intros J. destruct (rp_ins _ J) as (_ & _ & _ & _ & _ & X). auto. }
    pose proof rp_nodup as ND. apply NoDup_remove in ND. destruct ND as [_ N2].
    split. { intros ->. apply N2. apply in_or_app; auto. }
    destruct (rp_old _ I) as (n & A & B).
    split. { intros ->. refine (anc_proper_neq h p n p p _ A B (anc_refl h p) eq_refl). apply (wt_rooted _ _ WT). exists n; auto. }
    intros ->. fold h in A. congruence.
  Qed.
  Lemma rp_hd : forall q, hd_error b = Some q -> In q (a ++ old :: b) /\ ~ In q ins /\ q <> old /\ q <> p /\ q <> c.
  Proof.
    intros q E. assert (IA : In q b) by (apply hd_error_in; auto).
    assert (I : In q (a ++ old :: b)) by (apply in_or_app; right; right; auto).
    split; auto. split. { intros J. destruct (rp_ins _ J) as (_ & _ & _ & _ & _ & X). auto. }
    pose proof rp_nodup as ND. apply NoDup_remove in ND. destruct ND as [_ N2].
    split. { intros ->. apply N2. apply in_or_app; auto. }
    destruct (rp_old _ I) as (n & A & B).
    split. { intros ->. refine (anc_proper_neq h p n p p _ A B (anc_refl h p) eq_refl). apply (wt_rooted _ _ WT). exists n; auto. }
    intros ->. fold h in A. congruence.
  Qed.

  Lemma rp_facts : In x ins /\ In y ins /\ ~ In p ins /\ ~ In old ins /\ old <> p /\ old <> c /\ c <> p /\ d <> old /\ n_pending no = false /\
    n_owner no = Some d /\ n_prev no = last_error a /\ n_next no = hd_error b /\ n_parent no = Some p.
  Proof.
    assert (IO : In old (a ++ old :: b)) by (apply in_or_app; right; left; auto).
    destruct (wt_links _ _ WT p a old b CH) as (nr & R1 & R2 & R3 & R4 & R5). assert (nr = no) by congruence; subst nr.
    split; [apply hd_error_in; auto|]. split; [apply last_error_in; auto|].
    split. { intros I. apply (rp_acy _ I). constructor. }
    split. { intros J. destruct (rp_ins _ J) as (_ & _ & _ & _ & _ & X). auto. }
    split. { intros E. refine (anc_proper_neq h old no p p _ Ho R3 (anc_refl h p) _); [|congruence]. apply (wt_rooted _ _ WT). exists no; auto. }
    split. { intros E. congruence. }
    split. { intros E. apply ACY. rewrite E. constructor. }
    split. { intros E. destruct (wo_doc _ _ WO _ _ Hd Td) as (_ & X & _). congruence. }
    split. { destruct (n_pending no) eqn:Q; auto. destruct (wo_pending _ _ WO _ _ Ho Q) as (X & _). congruence. }
    split. { rewrite (wo_child _ _ WO _ _ _ _ Ho R3 Hp). auto. }
    auto.
  Qed.

  Variable h1 : heap.
  Hypothesis U1 : unpended h h1 d (Some c).

  Let h2 := match f with Some _ => hmod (hmod h1 c (set_last None)) c (set_first None) | None => h1 end.
  Let hA := hmod (hmod h2 x (set_prev (last_error a))) y (set_next (hd_error b)).
  Let hB := match last_error a with Some q => hmod hA q (set_next (Some x)) | None => hmod hA p (set_first (Some x)) end.
  Let hC := match hd_error b with Some q => hmod hB q (set_prev (Some y)) | None => hmod hB p (set_last (Some y)) end.
  Let hD := hpar hC p ins.
  Let hE := hmod hD old (fun n => set_parent None (set_next None (set_prev None n))).
  Let hF := hmod (hmod hE d (fun n => set_pend (n_pend n ++ [old]) n)) old (set_pending true).

  Lemma rp_h2 : forall j n, h j = Some n -> exists n', h2 j = Some n' /\ n_type n' = n_type n /\ n_attrs n' = n_attrs n /\
    n_parent n' = n_parent n /\ n_owner n' = n_owner n /\ data_eq n n' /\ n_prev n' = n_prev n /\ n_next n' = n_next n /\
    n_first n' = (if oid_eqb f (Some j) then None else n_first n) /\
    n_last n' = (if oid_eqb f (Some j) then None else n_last n) /\
    n_pending n' = (if oid_eqb (Some c) (Some j) then false else n_pending n) /\
    n_pend n' = (if Nat.eqb j d then rm_opt (Some c) (n_pend n) else n_pend n).
  Proof.
    intros j n Hj. destruct (un_some _ _ _ _ U1 _ _ Hj) as (n1 & Hn1 & (S & L1 & L2 & L3) & DE & O1 & P1 & P2).
    destruct S as (S1 & S2 & S3 & S4). destruct DE as (D1 & D2 & D3 & D4 & D5 & D6 & D7).
    unfold h2, data_eq. destruct K as [(-> & _)|(-> & _)].
    - exists n1. simpl oid_eqb at 1 2. repeat split; auto.
    - eexists; split; [hget|]. nproj. rewrite !oid_eqb_some, (Nat.eqb_sym c j) in *.
      repeat split; auto; repeat neqb; auto; congruence.
  Qed.

  Lemma rp_hC : forall j n, h j = Some n -> exists n', hC j = Some n' /\ n_type n' = n_type n /\ n_attrs n' = n_attrs n /\
    n_parent n' = n_parent n /\ n_owner n' = n_owner n /\ data_eq n n' /\
    n_first n' = (if Nat.eqb j p then hd_error (a ++ ins ++ b) else if oid_eqb f (Some j) then None else n_first n) /\
    n_last n' = (if Nat.eqb j p then last_error (a ++ ins ++ b) else if oid_eqb f (Some j) then None else n_last n) /\
    n_prev n' = (if oid_eqb (hd_error ins) (Some j) then last_error a
                  else if oid_eqb (hd_error b) (Some j) then last_error (a ++ ins) else n_prev n) /\
    n_next n' = (if oid_eqb (last_error ins) (Some j) then hd_error b
                  else if oid_eqb (last_error a) (Some j) then hd_error (ins ++ b) else n_next n) /\
    n_pending n' = (if oid_eqb (Some c) (Some j) then false else n_pending n) /\
    n_pend n' = (if Nat.eqb j d then rm_opt (Some c) (n_pend n) else n_pend n).
  Proof.
    intros j n Hj. destruct (rp_h2 _ _ Hj) as (n1 & Hn1 & T1 & A1 & PA & O1 & DE & PV & NX & F1 & L1 & P1 & P2).
    destruct DE as (D1 & D2 & D3 & D4 & D5 & D6 & D7).
    destruct (wt_ends _ _ WT _ _ Hp) as [EF EL]. rewrite CH in EF, EL. rewrite hd_error_app2 in EF. rewrite last_error_app2, last_error_cons in EL.
    assert (FP : oid_eqb f (Some p) = false). { apply oid_eqb_neq. destruct rp_facts as (_ & _ & _ & _ & _ & _ & X & _). destruct K as [(E & _)|(E & _)]; rewrite E; congruence. }
    assert (PF : j = p -> n_first n1 = match hd_error a with Some q => Some q | None => Some old end) by (intros ->; rewrite F1, FP; simpl in EF; congruence).
    assert (PL : j = p -> n_last n1 = match last_error b with Some q => Some q | None => Some old end).
    { intros ->. rewrite L1, FP. assert (n = np) by congruence. subst n. rewrite EL. destruct (last_error b); auto. }
    pose proof rp_last as AL. pose proof rp_hd as AH. destruct rp_facts as (AX & AY & AP & _).
    rewrite !hd_error_app2, !last_error_app2, Hx, Hy. rewrite oid_eqb_some in P1.
    unfold hC, hB, hA, data_eq.
    destruct (last_error a) as [q|] eqn:ELa; destruct (hd_error b) as [z|] eqn:EHb.
    - destruct (hd_error a) as [a0|] eqn:EHa. 2:{ destruct a; discriminate. }
      destruct (last_error b) as [b0|] eqn:ELb. 2:{ apply last_error_none in ELb. subst. discriminate. }
      destruct (AL _ eq_refl) as (? & ? & ? & ? & ?). destruct (AH _ eq_refl) as (? & ? & ? & ? & ?).
      eexists; split; [hget|]. nproj. rewrite !oid_eqb_some, (Nat.eqb_sym x j), (Nat.eqb_sym y j), (Nat.eqb_sym q j), (Nat.eqb_sym z j).
      repeat split; try congruence; repeat neqb; auto; try congruence.
    - destruct (hd_error a) as [a0|] eqn:EHa. 2:{ destruct a; discriminate. }
      assert (b = []) by (destruct b; [auto|discriminate]). subst b. simpl last_error in *.
      destruct (AL _ eq_refl) as (? & ? & ? & ? & ?).
      eexists; split; [hget|]. nproj. rewrite !oid_eqb_some, (Nat.eqb_sym x j), (Nat.eqb_sym y j), (Nat.eqb_sym q j).
      repeat split; try congruence; repeat neqb; auto; try congruence.
    - apply last_error_none in ELa. subst a. simpl hd_error in *. destruct (AH _ eq_refl) as (? & ? & ? & ? & ?).
      destruct (last_error b) as [b0|] eqn:ELb. 2:{ apply last_error_none in ELb. subst. discriminate. }
      eexists; split; [hget|]. nproj. rewrite !oid_eqb_some, (Nat.eqb_sym x j), (Nat.eqb_sym y j), (Nat.eqb_sym z j).
      repeat split; try congruence; repeat neqb; auto; try congruence.
    - apply last_error_none in ELa. subst a. assert (b = []) by (destruct b; [auto|discriminate]). subst b. simpl hd_error. simpl last_error.
      eexists; split; [hget|]. nproj. rewrite !oid_eqb_some, (Nat.eqb_sym x j), (Nat.eqb_sym y j).
      repeat split; try congruence; repeat neqb; auto; try congruence.
  Qed.

  Lemma rp_none : forall j, h j = None -> hF j = None.
  Proof.
    intros j Hj. apply (un_none _ _ _ _ U1) in Hj. unfold hF, hE, hD. do 3 (apply (proj2 (hmod_none _ _ _ _))). apply hpar_none. unfold hC, hB, hA, h2.
    destruct (last_error a); destruct (hd_error b); destruct f; repeat (apply (proj2 (hmod_none _ _ _ _))); auto.
  Qed.

  Lemma rp_hF : forall j n, h j = Some n -> exists n', hF j = Some n' /\ n_type n' = n_type n /\ n_attrs n' = n_attrs n /\
    n_parent n' = (if Nat.eqb j old then None else if mem j ins then Some p else n_parent n) /\ n_owner n' = n_owner n /\ data_eq n n' /\
    n_first n' = (if Nat.eqb j p then hd_error (a ++ ins ++ b) else if oid_eqb f (Some j) then None else n_first n) /\
    n_last n' = (if Nat.eqb j p then last_error (a ++ ins ++ b) else if oid_eqb f (Some j) then None else n_last n) /\
    n_prev n' = (if Nat.eqb j old then None else if oid_eqb (hd_error ins) (Some j) then last_error a
                  else if oid_eqb (hd_error b) (Some j) then last_error (a ++ ins) else n_prev n) /\
    n_next n' = (if Nat.eqb j old then None else if oid_eqb (last_error ins) (Some j) then hd_error b
                  else if oid_eqb (last_error a) (Some j) then hd_error (ins ++ b) else n_next n) /\
    n_pending n' = (if Nat.eqb j old then true else if oid_eqb (Some c) (Some j) then false else n_pending n) /\
    n_pend n' = (if Nat.eqb j d then rm_opt (Some c) (n_pend n) ++ [old] else n_pend n).
  Proof.
    intros j n Hj. destruct (rp_hC _ _ Hj) as (m & C1 & C2 & C3 & C4 & C5 & (D1 & D2 & D3 & D4 & D5 & D6 & D7) & C7 & C8 & C9 & C10 & C11 & C12).
    assert (GD : hD j = Some (if mem j ins then set_parent (Some p) m else m)) by (apply hpar_get; auto).
    unfold hF, hE, data_eq. eexists; split; [hget|]. nproj. rewrite C4, C12.
    repeat split; auto; repeat neqb; auto; try congruence.
  Qed.

  Lemma rp_spliced : spliced h hF p d a [old] b ins f (Some c).
  Proof.
    destruct rp_facts as (AX & AY & AP & AO & _).
    constructor.
    - apply rp_none.
    - intros j n Hj. destruct (rp_hF _ _ Hj) as (n' & C1 & C2 & C3 & C4 & C5 & C6 & C7 & C8 & C9 & C10 & C11 & C12).
      exists n'. replace (mem j [old]) with (Nat.eqb j old) by (unfold mem; cbn [existsb]; rewrite orb_false_r; auto).
      do 6 (split; [auto; fail|]). split; [|split; [|split; auto]].
      + intros E. rewrite E in C9, C10. auto.
      + rewrite C5. destruct (mem j ins) eqn:M; auto. apply mem_in in M. destruct (rp_ins _ M) as (m & M1 & _ & M2 & _).
        congruence.
    - intros j n n' Hj Hj'. destruct (rp_hF _ _ Hj) as (n2 & C1 & C2 & C3 & C4 & C5 & C6 & C7 & C8 & C9 & C10 & C11 & C12).
      assert (n2 = n') by congruence; subst. split; auto.
      replace (mem j [old]) with (Nat.eqb j old) by (unfold mem; cbn [existsb]; rewrite orb_false_r; auto).
      intros E. rewrite E in *. auto.
  Qed.

  Lemma rp_lchain : lchain hC ins (hd_error b).
  Proof.
    pose proof rp_mode as MO.
    assert (X : forall c n, In c ins -> h c = Some n -> exists n', hC c = Some n' /\
        n_next n' = if oid_eqb (last_error ins) (Some c) then hd_error b else n_next n).
    { intros z n I Hz. destruct (rp_hC _ _ Hz) as (n' & H1 & _ & _ & _ & _ & _ & _ & _ & _ & H10 & _).
      exists n'. split; auto. rewrite H10. destruct (oid_eqb (last_error ins) (Some z)); auto.
      rewrite not_last; auto. intros Q. destruct (rp_ins _ I) as (_ & _ & _ & _ & _ & Y). apply Y. apply in_or_app; auto. }
    destruct (mode_inv _ _ _ _ _ _ MO) as [(E & _)|[(c' & n & E & _ & _ & C1 & C2)|(g & n & E & _ & _ & A1 & A2 & A3 & A4)]]; rewrite E in X |- *.
    - simpl. auto.
    - simpl. split; auto. destruct (X c' n) as (n' & A & B); [left; auto|auto|].
      exists n'. split; auto. rewrite B. unfold last_error. simpl. rewrite Nat.eqb_refl. auto.
    - pose proof (wt_seg _ _ WT g) as SG. pose proof (wt_nodup _ _ WT g) as ND.
      clear - SG X ND. revert SG X ND. generalize (@None id) at 1. generalize (ch g). induction l as [|e l]; simpl; intros o SG X ND; auto.
      destruct SG as [(n & A & B & C & D & F) SG]. inversion ND; subst. split.
      + destruct (X e n) as (n' & A' & B'); auto. exists n'. split; auto. rewrite B'. rewrite last_error_cons.
        destruct l as [|c' l]. { simpl. rewrite Nat.eqb_refl. auto. }
        destruct (last_error (c' :: l)) eqn:Q. 2:{ apply last_error_none in Q; discriminate. }
        rewrite oid_eqb_some. destruct (Nat.eqb_spec i e); auto. subst. exfalso. apply H1. apply last_error_in; auto.
      + eapply IHl; eauto. intros c0 n0 I0 Hc0. destruct (X c0 n0) as (n' & A' & B'); auto. exists n'. split; auto.
        rewrite B'. rewrite last_error_cons. destruct (last_error l) eqn:Q; auto.
        apply last_error_none in Q. subst. destruct I0.
  Qed.

  Lemma node_replace_exec : node_replace old c (withh s h1) = Ok tt (withh s hE).
  Proof.
    destruct rp_facts as (AX & AY & AP & AO & O1 & O2 & O3 & O4 & O5 & O6 & O7 & O8 & O9).
    pose proof rp_last as AL0. pose proof rp_hd as AH0. pose proof rp_old as AO0. pose proof rp_lchain as LCH.
    pose proof rp_ins as RI. pose proof rp_hC as GC.
    destruct (un_some _ _ _ _ U1 _ _ Hc) as (nc1 & Hc1 & ((TY & _) & FI & LA & _) & _).
    destruct (rp_h2 _ _ Ho) as (no2 & Ho2 & _ & _ & PA2 & _ & _ & PV2 & NX2 & _).
    unfold node_replace. step (load_ok (withh s h1) c nc1 Hc1).
    assert (E1 : (if ntype_eqb (n_type nc1) FRAGMENT
       then upd c (set_last None);;; upd c (set_first None);;; ret (n_first nc1, n_last nc1)
       else ret (Some c, Some c)) (withh s h1) = Ok (Some x, Some y) (withh s h2)).
    { unfold h2. rewrite TY. destruct K as [(E1 & E2 & T)|(E1 & E2 & T)]; rewrite E1.
      - apply ntype_eqb_neq in T. rewrite T. rewrite E2 in Hx, Hy. unfold ret. simpl in Hx. unfold last_error in Hy. simpl in Hy. rewrite <- Hx, <- Hy. reflexivity.
      - rewrite T. cbn [ntype_eqb]. supd. supd. unfold ret. destruct (wt_ends _ _ WT _ _ Hc) as [EF EL].
        rewrite FI, LA, EF, EL, <- E2, Hx, Hy. reflexivity. }
    step E1. clear E1. step (load_ok (withh s h2) old no2 Ho2).
    rewrite PA2, PV2, NX2, O7, O8, O9. step (deref_ok y (withh s h2)).
    assert (LV : forall j n, h j = Some n -> exists n', h2 j = Some n').
    { intros j n Hj. destruct (rp_h2 _ _ Hj) as (m & M & _). eauto. }
    destruct (RI _ AX) as (nx & Hnx & _). destruct (RI _ AY) as (ny & Hny & _).
    destruct (LV _ _ Hnx) as (nx1 & Hnx1). destruct (LV _ _ Hny) as (ny1 & Hny1). destruct (LV _ _ Hp) as (np1 & Hp1).
    supd. supd. fold hA.
    assert (E2 : match last_error a with Some q => upd q (set_next (Some x)) | None => p0 <- deref (Some p);; upd p0 (set_first (Some x)) end (withh s hA) = Ok tt (withh s hB)).
    { unfold hB. destruct (last_error a) as [q|] eqn:EL.
      - destruct (AL0 _ eq_refl) as [I _]. destruct (AO0 _ I) as (nq & Hq & _). destruct (LV _ _ Hq) as (nq1 & Hq1).
        erewrite upd_ok by (rewrite withh_heap; unfold hA; hget). reflexivity.
      - step (deref_ok p (withh s hA)). erewrite upd_ok by (rewrite withh_heap; unfold hA; hget). reflexivity. }
    step E2. clear E2.
    assert (LB : forall j n, h j = Some n -> exists n', hB j = Some n').
    { intros j n Hj. destruct (LV _ _ Hj) as (n1 & Hn1). unfold hB, hA. destruct (last_error a); eexists; hget. }
    assert (E3 : match hd_error b with Some q => upd q (set_prev (Some y)) | None => p0 <- deref (Some p);; upd p0 (set_last (Some y)) end (withh s hB) = Ok tt (withh s hC)).
    { unfold hC. destruct (hd_error b) as [q|] eqn:EL.
      - destruct (AH0 _ eq_refl) as [I _]. destruct (AO0 _ I) as (nq & Hq & _). destruct (LB _ _ Hq) as (nq1 & Hq1).
        rewrite (upd_ok (withh s hB) q nq1); auto.
      - step (deref_ok p (withh s hB)). destruct (LB _ _ Hp) as (nq1 & Hq1). rewrite (upd_ok (withh s hB) p nq1); auto. }
    step E3. clear E3.
    assert (E4 : with_fuel (fun f0 => reparent_loop f0 (Some p) y (Some x)) (withh s hC) = Ok tt (withh s hD)).
    { unfold with_fuel.
      assert (EX : Some x = match ins with [] => hd_error b | z :: _ => Some z end) by (destruct ins; inversion Hx; auto).
      rewrite EX. rewrite (reparent_loop_ok ins (withh s hC) _ p y (hd_error b)); auto.
      - destruct (GC _ _ Hny) as (n' & Q1 & _ & _ & _ & _ & _ & _ & _ & _ & Q2 & _). exists n'. split; auto.
        rewrite Q2, Hy, oid_eqb_refl. auto.
      - intros r I E. destruct (AH0 _ E) as (_ & X & _). contradiction.
      - unfold fuel_of. rewrite withh_nxt.
        assert (length ins <= s_nxt s).
        { rewrite <- (seq_length (s_nxt s) 0). apply NoDup_incl_length. { apply (HeapAttach.at_nodup s ch p ins f (Some c) WT rp_mode). }
          intros j I. destruct (RI _ I) as (n & Hn & _). apply in_seq. specialize (WL _ _ Hn). lia. }
        lia. }
    step E4. clear E4.
    destruct (GC _ _ Ho) as (noC & HoC & _).
    assert (HoD : exists m, hD old = Some m) by (eexists; exact (hpar_get _ _ _ _ _ HoC)). destruct HoD as (noD & HoD).
    erewrite upd_ok by exact HoD. reflexivity.
  Qed.

  Lemma rp_rest_exec : remove_pending c s = Ok tt (withh s h1) ->
    exists h', (forall j, h' j = hmod hF old ref_up j) /\ do_replace c old s = Ok old (withh s h').
  Proof.
    intros RP. destruct rp_facts as (AX & AY & AP & AO & O1 & O2 & O3 & O4 & O5 & O6 & O7 & O8 & O9).
    unfold do_replace. step RP. step node_replace_exec.
    destruct (rp_hC _ _ Ho) as (noC & HoC & C2 & C3 & C4 & C5 & _ & _ & _ & _ & _ & C11 & _).
    destruct (rp_hC _ _ Hd) as (ndC & HdC & _).
    assert (HoD : hD old = Some noC). { unfold hD. rewrite (hpar_get _ _ _ _ _ HoC). apply mem_notin in AO. rewrite AO. auto. }
    assert (HdD : exists m, hD d = Some m) by (eexists; exact (hpar_get _ _ _ _ _ HdC)). destruct HdD as (ndD & HdD).
    assert (HoE : exists m, hE old = Some m /\ n_owner m = Some d /\ n_pending m = false).
    { unfold hE. eexists. split; [hget|]. nproj. rewrite C5, C11, oid_eqb_some. split; auto.
      destruct (Nat.eqb_spec c old); congruence. }
    destruct HoE as (noE & HoE & OE & PE).
    assert (HdE : exists m, hE d = Some m). { unfold hE. eexists. hget. } destruct HdE as (ndE & HdE).
    erewrite bind_ok; [|eapply node_ref_ok; exact HoE]. cbv beta.
    rewrite withh_withh, withh_heap. unfold mark_pending.
    assert (HoG : exists m, hmod hE old ref_up old = Some m /\ n_owner m = Some d /\ n_pending m = false).
    { rewrite hmod_same, HoE. exists (ref_up noE). auto. }
    destruct HoG as (noG & HoG & OG & PG).
    rewrite bind_assoc.
    erewrite bind_ok; [|apply load_ok; exact HoG]. cbv beta. rewrite OG, PG. cbn [negb assert_].
    rewrite bind_assoc, bind_ret. unfold pend_append. rewrite bind_assoc. supd. supd.
    eexists. split; [|reflexivity].
    intros j. unfold hF, hmod. destruct (Nat.eqb_spec j old); destruct (Nat.eqb_spec j d); subst; try congruence; auto.
    - destruct (hE old); reflexivity.
  Qed.
End Replace.
