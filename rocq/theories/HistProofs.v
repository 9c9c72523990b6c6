(** No careful client breaks anything. *)
From Coq Require Import List Arith NArith Bool Lia ZifyBool ZifyNat ZifyN.
From Verif Require Import Base HeapModel HeapSpec HeapInv HeapExec HeapTree HeapSplice HeapLoops HeapEdit HeapAttach HeapInsert HeapFrame
  HeapOps HeapReplace HeapReplaceOp HeapRemoveOp HeapDestroy HeapGut HeapUnref HeapCreate HistModel HeapAttrNode.
Import ListNotations.
Local Open Scope dom_scope.

Record agrees (k : nat) (s : st) (g : client) : Prop := mkAgrees {
  ag_ref : forall i n, s_heap s i = Some n -> n_ref n = owns g i;
  ag_dead : forall i, s_heap s i = None -> owns g i = 0%N;
  ag_used : forall i n, s_heap s i = Some n -> spent n -> used g i = true;
  ag_bound : forall i, (owns g i <= N.of_nat k)%N
}.

Definition good_state (k : nat) (s : st) (g : client) : Prop := (exists ch, wf s ch) /\ agrees k s g.

Lemma frag_top : forall h ch, wfT h ch -> forall i n, h i = Some n -> n_type n = FRAGMENT -> n_parent n = None.
Proof.
  intros h ch WT i n H T. destruct (n_parent n) as [p|] eqn:P; auto.
  destruct (wt_parent _ _ WT _ _ _ H P) as (np & A & B & C). rewrite T in B. destruct B as [_ B]; [discriminate|].
  destruct (n_type np); discriminate.
Qed.

Lemma dies_inv : forall h i j, dies h i j -> j = i \/ exists n p, h j = Some n /\ n_parent n = Some p /\ n_ref n = 0%N /\ dies h i p.
Proof. intros h i j D. destruct D; eauto 8. Qed.

Lemma dies_dec : forall h ch i j, wfT h ch -> live h j -> dies h i j \/ ~ dies h i j.
Proof.
  intros h ch i j WT L. apply (wt_rooted _ _ WT) in L. clear WT. induction L.
  - destruct (Nat.eq_dec i0 i) as [->|NE]; [left; constructor|]. right. intros D.
    apply dies_inv in D. destruct D as [D|(m & p & A & B & _)]; congruence.
  - destruct (Nat.eq_dec i0 i) as [->|NE]; [left; constructor|]. destruct (N.eq_dec (n_ref n) 0) as [Z|Z].
    + destruct IHL as [D|D]; [left; econstructor; eauto|]. right. intros D'.
      apply dies_inv in D'. destruct D' as [D'|(m & q & A & B & _ & D')]; [congruence|].
      assert (m = n) by congruence; subst. assert (q = p) by congruence; subst. contradiction.
    + right. intros D'. apply dies_inv in D'. destruct D' as [D'|(m & q & A & B & C & D')]; congruence.
Qed.

Lemma orph_dec : forall h ch i j n, wfT h ch -> h j = Some n -> orphaned h i j \/ ~ orphaned h i j.
Proof.
  intros h ch i j n WT H. destruct (n_parent n) as [p|] eqn:P.
  - destruct (wt_parent _ _ WT _ _ _ H P) as (np & A & _).
    destruct (dies_dec h ch i p WT) as [D|D]. { exists np; auto. }
    + destruct (N.eq_dec (n_ref n) 0) as [Z|Z].
      * right. intros (m & q & B & C & E & _). assert (m = n) by congruence; subst. lia.
      * left. exists n, p. repeat split; auto. lia.
    + right. intros (m & q & B & C & E & F). assert (m = n) by congruence; subst. assert (q = p) by congruence; subst. contradiction.
  - right. intros (m & q & B & C & _). congruence.
Qed.

Section Step.
  Variables (k : nat) (s : st) (g : client) (ch : id -> list id).
  Hypothesis W : wf s ch.
  Hypothesis AG : agrees k s g.
  Hypothesis SH : short (S k).

  Lemma holds_live : forall i, holds g i -> exists n, s_heap s i = Some n /\ (0 < n_ref n)%N /\ no_wrap n.
  Proof.
    intros i H. destruct (s_heap s i) as [n|] eqn:E.
    - exists n. split; auto. pose proof (ag_ref _ _ _ AG _ _ E). pose proof (ag_bound _ _ _ AG i). unfold holds, no_wrap, short, two32 in *. lia.
    - pose proof (ag_dead _ _ _ AG _ E). unfold holds in H. lia.
  Qed.

  Lemma usable_ok : forall i, usable_by g i -> usable (s_heap s) i /\ held (s_heap s) i.
  Proof.
    intros i [H U]. destruct (holds_live _ H) as (n & A & B & C). split.
    - exists n. split; auto. intros SP. rewrite (ag_used _ _ _ AG _ _ A SP) in U. discriminate.
    - exists n. split; auto. split; auto. lia.
  Qed.

  Lemma plain_ok : forall i, holds g i -> plain (s_heap s) i -> exists n, s_heap s i = Some n /\ n_type n <> ATTRIBUTE /\ no_wrap n.
  Proof.
    intros i H P. destruct (holds_live _ H) as (n & A & B & C). exists n. split; auto. split; auto.
    intros T. apply P. unfold type_of. rewrite A. simpl. congruence.
  Qed.

  (** After an edit that answers [x]. *)
  Lemma edited_agrees : forall h' gone x g', edited (s_heap s) h' gone x -> live (s_heap s) x -> 
    (forall j, gone = Some j -> type_of (s_heap s) j = Some FRAGMENT -> used g' j = true) ->
    (forall j, used g j = true -> used g' j = true) -> (forall j, owns g' j = owns g j) ->
    forall l, agrees (S k) (withh (addlog s l) h') (gain g' x).
  Proof.
    intros h' gone x g' E Lx GN UM OM l. destruct W as (WL & WT & WO & WR).
    assert (INV : forall j n', h' j = Some n' -> exists n, s_heap s j = Some n).
    { intros j n' H. destruct (s_heap s j) eqn:Q; eauto. rewrite (ed_none _ _ _ _ E _ Q) in H. discriminate. }
    constructor; cbn [gain owns used withh s_heap].
    - intros j n' H. destruct (INV _ _ H) as [n A]. destruct (ed_some _ _ _ _ E _ _ A) as (m & B & B1 & B2 & B3 & B4 & B5 & B6 & B7 & B8 & B9 & B10).
      assert (m = n') by congruence; subst m. rewrite B9, OM, (ag_ref _ _ _ AG _ _ A). destruct (Nat.eqb j x); auto.
    - intros j H. assert (Q : s_heap s j = None). { destruct (s_heap s j) eqn:Q; auto. destruct (ed_some _ _ _ _ E _ _ Q) as (m & B & _). congruence. }
      destruct (Nat.eqb_spec j x). { subst. destruct Lx; congruence. } rewrite OM. apply (ag_dead _ _ _ AG); auto.
    - intros j n' H (S1 & S2 & S3). destruct (INV _ _ H) as [n A].
      destruct (ed_some _ _ _ _ E _ _ A) as (m & B & B1 & B2 & B3 & B4 & B5 & B6 & B7 & B8 & B9 & B10 & B11).
      assert (m = n') by congruence; subst m. rewrite B1 in S1. pose proof (frag_top _ _ WT _ _ A S1) as PA.
      destruct (n_pending n) eqn:PN.
      + destruct (B11 eq_refl) as [X|X]; [congruence|]. apply GN; auto. unfold type_of. rewrite A. simpl. congruence.
      + apply UM. apply (ag_used _ _ _ AG _ _ A). repeat split; auto.
    - intros j. rewrite OM. pose proof (ag_bound _ _ _ AG j). destruct (Nat.eqb j x); lia.
  Qed.

  Lemma grown_agrees : forall h' n0 d, grown (s_heap s) h' (s_nxt s) n0 d -> bare n0 -> (n_type n0 = FRAGMENT -> n_pending n0 = true) ->
    forall nx l, agrees (S k) (mkSt h' nx l) (gain g (s_nxt s)).
  Proof.
    intros h' n0 d G B PF nx l. destruct B as (BP & BF & BL & BV & BN & BT & BQ & BR).
    pose proof (gr_bwd _ _ _ _ _ G) as BW. pose proof (gr_fwd _ _ _ _ _ G) as FW.
    assert (O0 : owns g (s_nxt s) = 0%N). { apply (ag_dead _ _ _ AG). apply (gr_fresh _ _ _ _ _ G). }
    constructor; cbn [gain owns used s_heap].
    - intros j n' H. destruct (BW _ _ H) as [[-> ->]|(NE & n & A & E & _)].
      + rewrite Nat.eqb_refl, O0, BR. reflexivity.
      + apply Nat.eqb_neq in NE. rewrite NE. destruct (pe _ _ E) as (_ & _ & _ & _ & _ & _ & _ & _ & _ & E10). rewrite E10. apply (ag_ref _ _ _ AG); auto.
    - intros j H. destruct (Nat.eqb_spec j (s_nxt s)). { subst. rewrite (gr_new _ _ _ _ _ G) in H. discriminate. }
      apply (ag_dead _ _ _ AG). destruct (s_heap s j) eqn:Q; auto. destruct (FW _ _ Q) as (_ & n' & A & _). congruence.
    - intros j n' H (S1 & S2 & S3). destruct (BW _ _ H) as [[-> ->]|(NE & n & A & E & _)].
      + rewrite (PF S1) in S2. discriminate.
      + destruct (pe _ _ E) as (E1 & E2 & _ & _ & _ & _ & _ & _ & E9 & _). apply (ag_used _ _ _ AG _ _ A). repeat split; congruence.
    - intros j. pose proof (ag_bound _ _ _ AG j). destruct (Nat.eqb j (s_nxt s)); lia.
  Qed.

  Lemma more : agrees (S k) s g.
  Proof.
    destruct AG. constructor; auto. intros i. specialize (ag_bound0 i). lia.
  Qed.

  Lemma ref_agrees : forall i n, s_heap s i = Some n -> agrees (S k) (withh s (hmod (s_heap s) i ref_up)) (gain g i).
  Proof.
    intros i n H. constructor; cbn [gain owns used withh s_heap].
    - intros j m' A. destruct (hmod_inv _ _ _ _ _ A) as (m & M & E). pose proof (ag_ref _ _ _ AG _ _ M) as R.
      destruct (Nat.eqb_spec j i); subst; auto. pose proof (ag_bound _ _ _ AG i). rewrite ref_up_val; [lia|].
      unfold no_wrap, short, two32 in *. lia.
    - intros j A. apply hmod_none in A. destruct (Nat.eqb_spec j i); [congruence|]. apply (ag_dead _ _ _ AG); auto.
    - intros j m' A SP. destruct (hmod_inv _ _ _ _ _ A) as (m & M & E). apply (ag_used _ _ _ AG _ _ M).
      destruct (Nat.eqb j i); subst m'; auto.
    - intros j. pose proof (ag_bound _ _ _ AG j). destruct (Nat.eqb j i); lia.
  Qed.

  Lemma unref_ok : forall i, holds g i -> exists s', node_unref i s = Ok tt s' /\ good_state (S k) s' (lose g i).
  Proof.
    intros i H. destruct (holds_live _ H) as (n & A & B & C). 
    assert (RB : (n_ref n < two32)%N). { unfold no_wrap, two32 in *. lia. }
    destruct (unref_spec s ch i n W A B RB) as (h' & ch' & E & W' & R).
    exists (withh s h'). split; auto. split; [exists ch'; auto|].
    pose proof (ag_ref _ _ _ AG) as REF. pose proof (ag_dead _ _ _ AG) as DEAD. pose proof (ag_used _ _ _ AG) as USED.
    pose proof (ag_bound _ _ _ AG) as BND.
    assert (RV := ref_down_val n B RB).
    destruct ((1 <? n_ref n)%N || negb (is_none (n_parent n))) eqn:Q.
    - destruct R as [-> ->]. constructor; cbn [lose owns used withh s_heap].
      + intros j m' J. destruct (hmod_inv _ _ _ _ _ J) as (m & M & F). destruct (Nat.eqb_spec j i); subst; eauto.
        assert (m = n) by congruence; subst. rewrite RV, <- (REF _ _ M). reflexivity.
      + intros j J. apply hmod_none in J. destruct (Nat.eqb_spec j i); [congruence|auto].
      + intros j m' J SP. destruct (hmod_inv _ _ _ _ _ J) as (m & M & F). apply (USED _ _ M). destruct (Nat.eqb j i); subst m'; auto.
      + intros j. specialize (BND j). destruct (Nat.eqb j i); lia.
    - apply orb_false_iff in Q. destruct Q as [Q _]. assert (N1 : n_ref n = 1%N) by lia.
      set (h1 := hmod (s_heap s) i ref_down) in *.
      assert (OW : forall j m, h1 j = Some m -> n_ref m = owns (lose g i) j).
      { intros j m J. destruct (hmod_inv _ _ _ _ _ J) as (m0 & M & F). cbn [lose owns]. destruct (Nat.eqb_spec j i); subst; eauto.
        assert (m0 = n) by congruence; subst. rewrite RV, <- (REF _ _ M). reflexivity. }
      assert (Hi : h1 i = Some (ref_down n)). { unfold h1. rewrite hmod_same, A. auto. }
      destruct R as [R1 R2 R3 R4 R5 R6].
      assert (CL : forall j m, h1 j = Some m -> (h' j = None /\ n_ref m = 0%N) \/
         exists m', h' j = Some m' /\ n_ref m' = n_ref m /\ n_type m' = n_type m /\ (n_pending m' = n_pending m \/ n_pending m' = true \/ n_type m = DOCUMENT)).
      { intros j m J. destruct (ntype_eqb (n_type m) DOCUMENT) eqn:TD.
        - apply ntype_eqb_eq in TD. destruct (R5 _ _ J TD) as [X|(nd' & X1 & X2 & X3 & _)]; auto. right. exists nd'. repeat split; auto. congruence.
        - apply ntype_eqb_neq in TD.
          assert (DD : dies h1 i j \/ ~ dies h1 i j).
          { destruct W as (WL & WT & WO & WR). pose proof (same_struct_hmod (s_heap s) i ref_down struct_eq_ref_down) as SS.
            eapply (dies_dec h1 ch). - eapply same_wfT; eauto. - exists m; auto. }
          destruct DD as [DD|DD].
          + left. split; [eapply R1; eauto|]. destruct DD; [|congruence]. assert (m = ref_down n) by congruence; subst. lia.
          + destruct (orph_dec h1 ch i j m) as [OO|OO]; auto.
            { destruct W as (WL & WT & WO & WR). pose proof (same_struct_hmod (s_heap s) i ref_down struct_eq_ref_down) as SS. eapply same_wfT; eauto. }
            * right. exists (set_pending true (set_parent None m)). split; [apply R2; auto|]. repeat split; auto.
            * right. exists m. split; [apply R3; auto|]. auto. }
      assert (NW : forall j m', h' j = Some m' -> exists m, h1 j = Some m).
      { intros j m' J. destruct (h1 j) eqn:Z; eauto. rewrite (R4 _ Z) in J. discriminate. }
      constructor; rewrite ?withh_heap.
      + intros j m' J. destruct (NW _ _ J) as (m & M). destruct (CL _ _ M) as [[X Y]|(m2 & X1 & X2 & _)]; [congruence|].
        assert (m2 = m') by congruence; subst. rewrite X2. auto.
      + intros j J. destruct (h1 j) as [m|] eqn:M.
        * destruct (CL _ _ M) as [[X Y]|(m2 & X1 & X2 & _)]; [|congruence]. rewrite <- (OW _ _ M). auto.
        * apply hmod_none in M. cbn [lose owns]. destruct (Nat.eqb_spec j i); [congruence|auto].
      + intros j m' J (S1 & S2 & S3). destruct (NW _ _ J) as (m & M). destruct (CL _ _ M) as [[X Y]|(m2 & X1 & X2 & X3 & X4)]; [congruence|].
        assert (m2 = m') by congruence; subst m2. destruct X4 as [X4|[X4|X4]]; try congruence.
        destruct (hmod_inv _ _ _ _ _ M) as (m0 & M0 & F). apply (USED _ _ M0).
        assert (TY : n_type m0 = n_type m /\ n_pending m0 = n_pending m). { destruct (Nat.eqb j i); subst m; auto. }
        destruct TY as [T1 T2]. destruct W as (WL & WT & WO & WR). split; [congruence|]. split; [congruence|].
        eapply frag_top; eauto. congruence.
      + intros j. specialize (BND j). cbn [lose owns]. destruct (Nat.eqb j i); lia.
  Qed.

  Definition steps (o : op) : Prop :=
    (exists r s', exec o s = Ok r s' /\ good_state (S k) s' (account s o r g)) \/ (exists e, exec o s = Exc e s).

  Lemma tree_of : forall i n, s_heap s i = Some n -> exists t, repr (s_heap s) t /\ root t = i.
  Proof.
    intros i n H. destruct W as (WL & WT & _). eapply tree_exists; eauto. exists n; auto.
  Qed.

  Lemma spend_new_ok : forall o c, (forall r, account s o r g = account s o r g) ->
    spend_new s o g = (if is_fragment s c then spend g c else g) ->
    (forall j, Some c = Some j -> type_of (s_heap s) j = Some FRAGMENT -> used (spend_new s o g) j = true) /\
    (forall j, used g j = true -> used (spend_new s o g) j = true) /\ (forall j, owns (spend_new s o g) j = owns g j).
  Proof.
    intros o c _ E. rewrite E. split; [|split].
    - intros j J T. inversion J; subst j. unfold is_fragment, type_of in *. destruct (s_heap s c) as [n|]; [|discriminate].
      simpl in T. inversion T. rewrite H0. simpl. rewrite Nat.eqb_refl. reflexivity.
    - intros j U. destruct (is_fragment s c); simpl; auto. rewrite U. apply orb_true_r.
    - intros j. destruct (is_fragment s c); reflexivity.
  Qed.

  Lemma insert_steps : forall o p c r, exec o = node_out (insert_before p c r) ->
    (forall i, account s o (OutNode (Some i)) g = gain (spend_new s o g) i) ->
    spend_new s o g = (if is_fragment s c then spend g c else g) ->
    usable_by g p -> usable_by g c -> (forall i, r = Some i -> holds g i /\ plain (s_heap s) i) ->
    (type_of (s_heap s) c = Some FRAGMENT -> forall l x, children (s_heap s) c l -> In x l -> may_nest (s_heap s) p x) ->
    steps o.
  Proof.
    intros o p c r EX AC SN Up Uc Lr NF. destruct (usable_ok _ Up) as [P1 P2]. destruct (usable_ok _ Uc) as [C1 C2].
    destruct C2 as (nc & Hc & C2 & C3). destruct (tree_of _ _ Hc) as (t & Rt & Et).
    destruct (spend_new_ok o c (fun _ => eq_refl) SN) as (SN1 & SN2 & SN3).
    assert (LR : forall i, r = Some i -> exists n, s_heap s i = Some n /\ n_type n <> ATTRIBUTE).
    { intros i E. destruct (Lr _ E) as [A B]. destruct (plain_ok _ A B) as (n & X & Y & _). eauto. }
    destruct (insert_before_spec s ch p c r W P1 C1 LR (ex_intro _ nc (conj Hc (conj C2 C3))) P2 t Rt Et) as (oe & FF & Q).
    destruct oe as [e|].
    - right. exists e. rewrite EX. unfold node_out. apply bind_exc. auto.
    - destruct Q as [[F _]|(F & h' & E & W' & ED)].
      + exfalso. destruct F as [T (x & I & NM)]. apply NM. apply (NF T (ch c)); auto.
        destruct W as (_ & WT & _). apply (wfT_children _ _ WT); auto. exists nc; auto.
      + left. exists (OutNode (Some c)), (withh (addlog s (insert_log (s_heap s) p c r t)) h').
        split; [rewrite EX; unfold node_out; erewrite bind_ok by exact E; reflexivity|].
        split; [exists (inserted (s_heap s) ch p c r); exact W'|]. rewrite AC.
        eapply edited_agrees; eauto. exists nc; auto.
  Qed.

  Lemma replace_steps : forall p c old, usable_by g p -> usable_by g c -> holds g old -> plain (s_heap s) old ->
    (type_of (s_heap s) c = Some FRAGMENT -> ~ children (s_heap s) c []) -> steps (OReplace p c old).
  Proof.
    intros p c old Up Uc Ho Po NF. destruct (usable_ok _ Up) as [P1 P2]. destruct (usable_ok _ Uc) as [C1 C2].
    pose proof C2 as (nc & Hc & _). destruct (tree_of _ _ Hc) as (t & Rt & Et).
    destruct (spend_new_ok (OReplace p c old) c (fun _ => eq_refl) eq_refl) as (SN1 & SN2 & SN3).
    pose proof (plain_ok _ Ho Po) as LO.
    assert (NE : type_of (s_heap s) c = Some FRAGMENT -> ch c <> []).
    { intros T E. apply (NF T). destruct W as (_ & WT & _). apply (wfT_children _ _ WT); auto. exists nc; auto. }
    destruct (replace_child_spec s ch p c old W P1 C1 LO C2 P2 NE t Rt Et) as (oe & FF & Q).
    destruct oe as [e|].
    - right. exists e. unfold exec, node_out. apply bind_exc. auto.
    - destruct Q as (h' & E & W' & ED). left. eexists; eexists.
      split; [unfold exec, node_out; erewrite bind_ok by exact E; reflexivity|].
      split; [exists (replaced (s_heap s) ch p c old); exact W'|]. cbn [account].
      eapply edited_agrees; eauto. destruct LO as (no & A & _). exists no; auto.
  Qed.

  Lemma remove_steps : forall p c, holds g p -> holds g c -> plain (s_heap s) c -> steps (ORemove p c).
  Proof.
    intros p c Hp Hc Pc. destruct (plain_ok _ Hc Pc) as (nc & C1 & C2 & C3). destruct (holds_live _ Hc) as (m & M1 & M2 & M3).
    assert (m = nc) by congruence; subst m. destruct (holds_live _ Hp) as (np & P1 & _).
    destruct (tree_of _ _ C1) as (t & Rt & Et).
    destruct (remove_child_spec s ch p c W (ex_intro _ np P1) (ex_intro _ nc (conj C1 C2))) with (t := t) as (oe & FF & Q); auto.
    { exists nc. split; auto. split; auto. lia. }
    destruct oe as [e|].
    - right. exists e. unfold exec, node_out. apply bind_exc. auto.
    - destruct Q as (h' & E & W' & ED). left. eexists; eexists.
      split; [unfold exec, node_out; erewrite bind_ok by exact E; reflexivity|].
      split; [eexists; exact W'|]. cbn [account spend_new].
      eapply edited_agrees; eauto. { exists nc; auto. } discriminate.
  Qed.

  Lemma got_steps : forall o m v, exec o = nodes_out m -> (forall i, account s o (OutNode (Some i)) g = gain g i) ->
    account s o (OutNode None) g = g -> (exists s', m s = Ok v s' /\ got s s' v) -> steps o.
  Proof.
    intros o m v EX AC1 AC2 (s' & E & G). left. exists (OutNode v), s'.
    split; [rewrite EX; unfold nodes_out; erewrite bind_ok by exact E; reflexivity|].
    destruct v as [i|]; simpl in G.
    - destruct G as (n & A & ->). rewrite AC1. split; [|eapply ref_agrees; eauto].
      exists ch. eapply ref_up_wf; eauto. pose proof (ag_ref _ _ _ AG _ _ A). pose proof (ag_bound _ _ _ AG i).
      unfold no_wrap, short, two32 in *. lia.
    - subst s'. rewrite AC2. split; [exists ch; auto|]. apply more.
  Qed.

  Lemma sibling_steps : forall i, holds g i -> ~ stranded (s_heap s) i -> steps (OPrev i) /\ steps (ONext i).
  Proof.
    intros i H NS. destruct (holds_live _ H) as (n & A & _).
    destruct (ntype_eqb (n_type n) ATTRIBUTE) eqn:TA.
    { split; [apply got_steps with (m := get_previous_sibling i) (v := None)|apply got_steps with (m := get_next_sibling i) (v := None)]; auto;
        exists s; (split; [|reflexivity]); unfold get_previous_sibling, get_next_sibling; step (load_ok _ _ _ A); rewrite TA; reflexivity. }
    destruct (n_parent n) as [p|] eqn:P.
    - pose proof W as (WL & WT & WO & WR). destruct (wt_parent _ _ WT _ _ _ A P) as (np & B & C & D). apply ntype_eqb_neq in TA.
      destruct (C TA) as [I _]. apply in_split in I. destruct I as (a & b & E).
      destruct (get_sibling_ok s ch W i n p a b A E) as [X Y].
      split; [apply got_steps with (m := get_previous_sibling i) (v := last_error a)|apply got_steps with (m := get_next_sibling i) (v := hd_error b)]; auto.
    - assert (PV : n_prev n = None). { destruct (n_prev n) eqn:Q; auto. exfalso. apply NS. exists n. split; auto. split; auto. left; congruence. }
      assert (NX : n_next n = None). { destruct (n_next n) eqn:Q; auto. exfalso. apply NS. exists n. split; auto. split; auto. right; congruence. }
      split; [apply got_steps with (m := get_previous_sibling i) (v := None)|apply got_steps with (m := get_next_sibling i) (v := None)]; auto;
        exists s; (split; [|reflexivity]); unfold get_previous_sibling, get_next_sibling; step (load_ok _ _ _ A); rewrite TA, ?PV, ?NX; reflexivity.
  Qed.

  Lemma legal_steps : forall o, legal s g o -> steps o.
  Proof.
    intros o L. destruct o; cbn [legal] in L.
    - destruct (create_document_spec s ch W) as (h' & E & W' & G). left. eexists; eexists.
      split; [unfold exec, node_out; erewrite bind_ok by exact E; reflexivity|]. split; [eexists; exact W'|].
      cbn [account spend_new]. eapply grown_agrees; eauto. { repeat split. } discriminate.
    - destruct (create_doctype_spec s ch name value None None W) as (h' & E & W' & G). left. eexists; eexists.
      split; [unfold exec, node_out; erewrite bind_ok by exact E; reflexivity|]. split; [eexists; exact W'|].
      cbn [account spend_new]. eapply grown_agrees; eauto. { repeat split. } discriminate.
    - destruct L as (H & T & TN). destruct (holds_live _ H) as (nd & A & _).
      assert (TD : n_type nd = DOCUMENT). { unfold type_of in T. rewrite A in T. simpl in T. congruence. }
      destruct (create_node_spec s ch d nd t name value ns prefix W A TD TN) as (h' & E & W' & G). left. eexists; eexists.
      split; [unfold exec, node_out; erewrite bind_ok by exact E; reflexivity|]. split; [eexists; exact W'|].
      cbn [account spend_new]. eapply grown_agrees; eauto. { repeat split. } 
    - destruct L as (L1 & L2 & L3 & L4). apply (insert_steps (OInsert p c r) p c r); auto.
    - destruct L as (L1 & L2 & L3). apply (insert_steps (OAppend p c) p c None); auto. discriminate.
    - destruct L as (L1 & L2 & L3 & L4 & L5). apply replace_steps; auto.
    - destruct L as (L1 & L2 & L3). apply remove_steps; auto.
    - destruct (holds_live _ L) as (n & A & B & C). left. exists (OutNode (Some i)), (withh s (hmod (s_heap s) i ref_up)).
      split. { unfold exec. erewrite bind_ok; [|eapply node_ref_ok; exact A]. reflexivity. }
      split; [exists ch; eapply ref_up_wf; eauto|]. eapply ref_agrees; eauto.
    - destruct (unref_ok _ L) as (s' & E & G). left. exists OutNothing, s'.
      split; [unfold exec; erewrite bind_ok by exact E; reflexivity|]. exact G.
    - destruct (holds_live _ L) as (n & A & _). eapply got_steps; [reflexivity|reflexivity|reflexivity|]. apply (get_parent_ok s ch W i n A).
    - destruct (holds_live _ L) as (n & A & _). eapply got_steps; [reflexivity|reflexivity|reflexivity|]. apply (get_first_ok s ch W i n A).
    - destruct (holds_live _ L) as (n & A & _). eapply got_steps; [reflexivity|reflexivity|reflexivity|]. apply (get_last_ok s ch W i n A).
    - destruct L. apply sibling_steps; auto.
    - destruct L. apply sibling_steps; auto.
    - destruct (usable_ok _ L) as [(n & A & B) _]. eapply got_steps; [reflexivity|reflexivity|reflexivity|]. apply (get_owner_ok s ch W i n A B).
    - destruct (holds_live _ L) as (n & A & _). left. eexists; eexists.
      split; [unfold exec, bool_out; erewrite bind_ok by (eapply has_child_ok; eauto); reflexivity|].
      split; [exists ch; exact W|]. apply more.
    - destruct L as [L1 L2]. destruct (holds_live _ L1) as (n & A & _). destruct (holds_live _ L2) as (m & B & _).
      destruct (contains_ok s ch W i j n m A B) as (b & E & _). left. eexists; eexists.
      split; [unfold exec, bool_out; erewrite bind_ok by exact E; reflexivity|]. split; [exists ch; exact W|]. apply more.
    - destruct L as (L1 & L2 & TE & TA & PE & _). destruct (holds_live _ L1) as (ne & A & _). destruct (holds_live _ L2) as (na & B & _).
      unfold type_of, parent_of in TE, TA, PE. rewrite A in TE. rewrite B in TA, PE. cbn in TE, TA, PE.
      destruct (set_attribute_node_spec s ch e a ne na W A B ltac:(congruence) ltac:(congruence) PE)
        as [[_ E]|[(_ & _ & E)|[(_ & _ & _ & E)|(_ & _ & P0 & h' & d & l & E & Od & OW & W')]]].
      + right. exists WRONG_DOCUMENT_ERR. unfold exec. apply bind_exc. exact E.
      + right. exists NO_MODIFICATION_ALLOWED_ERR. unfold exec. apply bind_exc. exact E.
      + right. exists INUSE_ATTRIBUTE_ERR. unfold exec. apply bind_exc. exact E.
      + left. exists (OutNode None), (withh (addlog s l) h'). split; [unfold exec; erewrite bind_ok by exact E; reflexivity|].
        split; [exists ch; exact W'|]. cbn [account]. destruct more as [m1 m2 m3 m4].
        constructor; rewrite ?withh_heap; auto.
        * intros j n' J. destruct (owned_inv _ _ _ _ _ OW _ _ J) as (n & N & ->). destruct (own_same e a d j n) as (_ & _ & _ & _ & _ & _ & R). rewrite R. eauto.
        * intros j J. apply m2. destruct (s_heap s j) as [n|] eqn:X; auto. rewrite (ow_some _ _ _ _ _ OW _ _ X) in J. discriminate.
        * intros j n' J SP. destruct (owned_inv _ _ _ _ _ OW _ _ J) as (n & N & ->). apply (m3 j n N).
          revert SP. unfold spent, own. destruct (Nat.eqb_spec j a) as [->|]; [cbn; intros (X & _); congruence|].
          destruct (Nat.eqb j d); [auto|]. destruct (Nat.eqb j e); auto.
  Qed.
End Step.

Lemma empty_wf : wf empty_st (fun _ => []).
Proof.
  split; [|split; [|split]].
  - intros i n H. discriminate.
  - constructor; simpl; intros; try discriminate; auto. { constructor. } destruct H; discriminate.
  - constructor; simpl; intros; discriminate.
  - constructor; simpl; intros; discriminate.
Qed.

Lemma start_good : good_state 0 empty_st no_client.
Proof.
  split; [eexists; apply empty_wf|]. constructor; simpl; intros; try discriminate; auto.
Qed.

Lemma short_pred : forall k, short (S k) -> short k.
Proof. unfold short. lia. Qed.

Theorem reach_good : forall k s g, reach k s g -> short k -> good_state k s g.
Proof.
  induction 1; intros SH.
  - apply start_good.
  - destruct (IHreach (short_pred _ SH)) as [[ch W] AG].
    destruct (legal_steps k s g ch W AG SH o H0) as [(r' & s2 & E & G)|(e & E)]; [|congruence].
    assert (r' = r /\ s2 = s') by (split; congruence). destruct H2; subst. auto.
  - destruct (IHreach (short_pred _ SH)) as [[ch W] AG].
    destruct (legal_steps k s g ch W AG SH o H0) as [(r' & s2 & E & G)|(e' & E)]; [congruence|].
    assert (s' = s) by congruence. subst. split; [exists ch; auto|]. apply more. auto.
Qed.
