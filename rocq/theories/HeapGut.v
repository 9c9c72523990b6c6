(** Tearing down part of the heap preserves the invariant. *)
From Coq Require Import List Arith NArith Bool Lia ZifyBool ZifyNat ZifyN.
From Verif Require Import Base HeapModel HeapSpec HeapInv HeapExec HeapTree HeapSplice HeapLoops HeapEdit HeapAttach HeapInsert HeapFrame HeapOps HeapDestroy.
Import ListNotations.
Local Open Scope dom_scope.

Definition gut_ch (ch : id -> list id) (F : list id) (K : bool) (d : id) (j : id) : list id :=
  if mem_id j F || (K && Nat.eqb j d) then [] else ch j.

Section Gut.
  Variables (h h' : heap) (ch : id -> list id) (F S : list id) (d : id) (K : bool).
  Hypothesis WT : wfT h ch.
  Hypothesis WO : wfO h ch.
  Let cut (p : id) : Prop := In p F \/ (K = true /\ p = d).
  Hypothesis GD : forall j, In j F -> h' j = None.
  Hypothesis GK : forall j, ~ In j F -> ~ In j S -> j <> d -> h' j = h j.
  Hypothesis GS : forall j n, In j S -> h j = Some n -> h' j = Some (set_pending true (set_parent None n)).
  Hypothesis GN : h d = None -> h' d = None.
  Hypothesis Gd : forall nd, h d = Some nd -> n_type nd = DOCUMENT /\ ~ In d F /\ exists nd', h' d = Some nd' /\
    n_type nd' = DOCUMENT /\ n_owner nd' = n_owner nd /\ n_parent nd' = None /\ n_pending nd' = false /\
    n_attrs nd' = n_attrs nd /\ NoDup (n_pend nd') /\
    (forall x, In x (n_pend nd') <-> (In x (n_pend nd) /\ ~ In x F) \/ In x S) /\
    n_first nd' = (if K then None else n_first nd) /\ n_last nd' = (if K then None else n_last nd).
  Hypothesis CP : forall j n p, h j = Some n -> n_parent n = Some p -> cut p -> In j F \/ In j S.
  Hypothesis CF : forall j n, In j F -> h j = Some n -> n_type n <> DOCUMENT /\
    (forall p, n_parent n = Some p -> cut p) /\ (n_pending n = true -> n_owner n = Some d).
  Hypothesis CS : forall j, In j S -> exists n p, h j = Some n /\ n_parent n = Some p /\ cut p /\
    (n_ref n > 0)%N /\ n_owner n = Some d /\ n_type n <> DOCUMENT /\ ~ In j F.

  Let ch' := gut_ch ch F K d.

  Lemma gut_cut : forall j, cut j -> ch' j = [].
  Proof.
    intros j [I|(E1 & E2)]; unfold ch', gut_ch.
    - apply mem_id_in in I. rewrite I. reflexivity.
    - rewrite E2, Nat.eqb_refl, E1, orb_true_r. reflexivity.
  Qed.
  Lemma gut_keep : forall j, ~ cut j -> ch' j = ch j.
  Proof.
    intros j N. unfold ch', gut_ch. destruct (mem_id j F) eqn:M.
    - apply mem_id_in in M. exfalso. apply N. left; auto.
    - destruct (bool_dec K true) as [Q|Q]; [|apply not_true_is_false in Q]; rewrite Q; auto. simpl.
      destruct (Nat.eqb_spec j d); auto. exfalso. apply N. right; auto.
  Qed.
  Lemma cut_dec : forall j, {cut j} + {~ cut j}.
  Proof.
    intros j. destruct (mem_id j F) eqn:M. { left. left. apply mem_id_in; auto. }
    assert (~ In j F) by (intros I; apply mem_id_in in I; congruence).
    destruct (bool_dec K true) as [Q|Q].
    - destruct (Nat.eq_dec j d); [left; right; auto|]. right. intros [A|[_ A]]; auto.
    - right. intros [A|[A _]]; auto.
  Qed.
  Lemma S_dec : forall j, {In j S} + {~ In j S}.
  Proof. intros. apply in_dec. apply Nat.eq_dec. Qed.
  Lemma F_dec : forall j, {In j F} + {~ In j F}.
  Proof. intros. apply in_dec. apply Nat.eq_dec. Qed.

  (** The three kinds of node left. *)
  Lemma gut_inv : forall j n', h' j = Some n' -> ~ In j F /\ exists n, h j = Some n /\
    ((j <> d /\ ~ In j S /\ n' = n) \/ (j <> d /\ In j S /\ n' = set_pending true (set_parent None n)) \/ (j = d)).
  Proof.
    intros j n' H. destruct (F_dec j) as [I|I]. { rewrite GD in H; auto. discriminate. } split; auto.
    destruct (Nat.eq_dec j d) as [->|E].
    - destruct (h d) as [nd|] eqn:Hd; [eauto|]. rewrite GN in H; auto. discriminate.
    - destruct (S_dec j) as [J|J].
      + destruct (CS _ J) as (n & p & A & _). rewrite (GS _ _ J A) in H. inversion H; subst. exists n. split; auto.
      + rewrite GK in H; auto. exists n'. split; auto.
  Qed.

  Lemma cut_top : forall j n p, h j = Some n -> n_parent n = Some p -> cut p -> h' j = None \/ (In j S /\ ~ In j F).
  Proof.
    intros j n p Hj Pj C. destruct (CP _ _ _ Hj Pj C) as [A|A]; [left; auto|].
    destruct (CS _ A) as (_ & _ & _ & _ & _ & _ & _ & _ & Q). auto.
  Qed.

  (** A kept node with a kept parent. *)
  Lemma kept_child : forall j n p, h j = Some n -> n_parent n = Some p -> ~ cut p -> ~ In j F /\ ~ In j S /\ j <> d /\ h' j = Some n.
  Proof.
    intros j n p Hj Pj NC.
    assert (A : ~ In j F). { intros I. apply NC. apply (proj1 (proj2 (CF _ _ I Hj))); auto. }
    assert (B : ~ In j S). { intros I. destruct (CS _ I) as (m & q & X1 & X2 & X3 & _). rewrite Hj in X1. inversion X1; subst. congruence. }
    assert (C : j <> d). { intros ->. destruct (Gd _ Hj) as (T & _). destruct (wo_doc _ _ WO _ _ Hj T) as (_ & Q & _). congruence. }
    repeat split; auto. rewrite GK; auto.
  Qed.

  Lemma gut_wfT : wfT h' ch'.
  Proof.
    constructor.
    - intros i H. destruct (cut_dec i) as [C|C]; [apply gut_cut; auto|]. rewrite gut_keep by auto. apply (wt_dead _ _ WT).
      destruct (h i) as [n|] eqn:Hi; auto. exfalso.
      destruct (Nat.eq_dec i d) as [->|E]. { destruct (Gd _ Hi) as (_ & _ & nd' & A & _). congruence. }
      destruct (S_dec i) as [J|J]. { rewrite (GS _ _ J Hi) in H. discriminate. }
      rewrite GK in H; auto. congruence. intros I. apply C. left; auto.
    - intros p n' H. destruct (gut_inv _ _ H) as (NF & n & Hn & Q). destruct (wt_ends _ _ WT _ _ Hn) as [E1 E2].
      destruct Q as [(A & B & ->)|[(A & B & ->)| ->]].
      + rewrite gut_keep; auto. intros [C|[_ C]]; auto.
      + rewrite gut_keep; auto. intros [C|[_ C]]; auto.
      + destruct (Gd _ Hn) as (_ & _ & nd' & X1 & _ & _ & _ & _ & _ & _ & _ & X8 & X9). rewrite X1 in H. inversion H; subst n'.
        rewrite X8, X9. destruct (bool_dec K true) as [Q|Q]; [|apply not_true_is_false in Q]; rewrite Q.
        * rewrite gut_cut; auto. right; auto.
        * rewrite gut_keep; auto. intros [C|[C _]]; auto. congruence.
    - intros p. destruct (cut_dec p) as [C|C]. { rewrite gut_cut by auto. exact I. }
      rewrite gut_keep by auto. eapply seg_ext; [|apply (wt_seg _ _ WT)]. intros c n Ic Hc. exists n. split; [|repeat split].
      destruct (wt_child _ _ WT _ _ Ic) as (m & _ & X1 & _ & _ & X4 & _). assert (m = n) by congruence; subst.
      apply (kept_child c n p); auto.
    - intros p. unfold ch', gut_ch. destruct (_ || _); [constructor|apply (wt_nodup _ _ WT)].
    - intros i n' p H P. destruct (gut_inv _ _ H) as (NF & n & Hn & Q).
      destruct Q as [(A & B & ->)|[(A & B & ->)| ->]]; [|discriminate|].
      2:{ destruct (Gd _ Hn) as (_ & _ & nd' & X1 & _ & _ & X4 & _). rewrite X1 in H. inversion H; subst n'. congruence. }
      assert (NC : ~ cut p). { intros C. destruct (CP _ _ _ Hn P C); auto. }
      destruct (wt_parent _ _ WT _ _ _ Hn P) as (np & X1 & X2 & X3).
      rewrite gut_keep by auto.
      assert (NP : exists np', h' p = Some np' /\ n_type np' = n_type np /\ n_attrs np' = n_attrs np).
      { destruct (Nat.eq_dec p d) as [->|E].
        - destruct (Gd _ X1) as (Y1 & _ & nd' & Z1 & Z2 & _ & _ & _ & Z6 & _). exists nd'. repeat split; auto. congruence.
        - destruct (S_dec p) as [J|J].
          + eexists. split; [apply GS; eauto|]. auto.
          + exists np. rewrite GK; auto. intros I. apply NC. left; auto. }
      destruct NP as (np' & Y1 & Y2 & Y3). exists np'. rewrite Y2, Y3. auto.
    - intros e n' H. destruct (gut_inv _ _ H) as (NF & n & Hn & Q). destruct (wt_attrs _ _ WT _ _ Hn) as (X1 & X2 & X3).
      assert (EA : n_attrs n' = n_attrs n /\ n_type n' = n_type n).
      { destruct Q as [(A & B & ->)|[(A & B & ->)| ->]]; auto.
        destruct (Gd _ Hn) as (Y1 & _ & nd' & Z1 & Z2 & _ & _ & _ & Z6 & _). rewrite Z1 in H. inversion H; subst n'. split; congruence. }
      destruct EA as [-> ->]. repeat split; auto. intros a Ia. destruct (X3 _ Ia) as (na & Y1 & Y2 & Y3).
      exists na. repeat split; auto. apply (kept_child a na e); auto.
      intros [C|[C1 C2]]; auto. subst. destruct (Gd _ Hn) as (Y4 & _). rewrite X2 in Y4; [discriminate|]. intros Z. rewrite Z in Ia. destruct Ia.
    - intros i [n' H]. assert (L : live h i). { destruct (gut_inv _ _ H) as (_ & n & Hn & _). exists n; auto. }
      pose proof (wt_rooted _ _ WT _ L) as R. clear L. revert n' H. induction R as [i n Hn Pn|i n p Hn Pn R IH]; intros n' H.
      + destruct (gut_inv _ _ H) as (NF & m & Hm & Q). assert (m = n) by congruence; subst.
        apply (rooted_top _ _ n' H). destruct Q as [(A & B & ->)|[(A & B & ->)| ->]]; auto.
        destruct (Gd _ Hn) as (Y1 & _ & nd' & Z1 & _ & _ & Z4 & _). congruence.
      + destruct (cut_dec p) as [C|C].
        * destruct (cut_top _ _ _ Hn Pn C) as [D|[D1 D2]]; [congruence|].
          apply (rooted_top _ _ n' H). rewrite (GS _ _ D1 Hn) in H. inversion H; subst. reflexivity.
        * destruct (kept_child _ _ _ Hn Pn C) as (_ & _ & _ & D). assert (n' = n) by congruence; subst.
          apply (rooted_step _ _ n p); auto.
          destruct (wt_parent _ _ WT _ _ _ Hn Pn) as (np & X1 & _).
          destruct (Nat.eq_dec p d) as [->|E].
          -- destruct (Gd _ X1) as (Y1 & _ & nd' & Z1 & _). eauto.
          -- destruct (S_dec p) as [J|J]. { eapply IH. apply GS; eauto. }
             eapply IH. rewrite GK; eauto. intros I. apply C. left; auto.
  Qed.

  Lemma doc_kept : forall x nx, h x = Some nx -> n_type nx = DOCUMENT -> exists nx', h' x = Some nx' /\ n_type nx' = DOCUMENT.
  Proof.
    intros x nx Hx T. destruct (Nat.eq_dec x d) as [->|E].
    - destruct (Gd _ Hx) as (_ & _ & nd' & A & B & _). eauto.
    - exists nx. split; auto. rewrite GK; auto.
      + intros I. destruct (CF _ _ I Hx); auto.
      + intros I. destruct (CS _ I) as (m & p & A & _ & _ & _ & _ & B & _). congruence.
  Qed.

  Lemma gut_wfO : wfO h' ch'.
  Proof.
    constructor.
    - intros i n' H T. destruct (gut_inv _ _ H) as (NF & n & Hn & Q). destruct Q as [(A & B & ->)|[(A & B & ->)| ->]].
      + apply (wo_doc _ _ WO); auto.
      + destruct (CS _ B) as (m & p & X & _ & _ & _ & _ & Y & _). assert (m = n) by congruence; subst. simpl in T. congruence.
      + destruct (Gd _ Hn) as (Y1 & _ & nd' & Z1 & Z2 & Z3 & Z4 & Z5 & Z6 & Z7 & _). rewrite Z1 in H. inversion H; subst n'.
        destruct (wo_doc _ _ WO _ _ Hn Y1) as (W1 & W2 & W3 & W4). repeat split; auto; congruence.
    - intros i n' H T. destruct (gut_inv _ _ H) as (NF & n & Hn & Q). destruct Q as [(A & B & ->)|[(A & B & ->)| ->]].
      + apply (wo_nondoc _ _ WO _ _ Hn); auto.
      + apply (wo_nondoc _ _ WO _ _ Hn); auto.
      + destruct (Gd _ Hn) as (Y1 & _ & nd' & Z1 & Z2 & _). congruence.
    - intros e ne' i H I. destruct (gut_inv _ _ H) as (NF & ne & Hn & Q).
      assert (OLD : In i (n_pend ne) -> ~ In i F -> exists n, h' i = Some n /\ n_owner n = Some e /\ n_pending n = true).
      { intros J NI. destruct (wo_pend _ _ WO _ _ _ Hn J) as (n & X1 & X2 & X3).
        destruct (Nat.eq_dec i d) as [->|E].
        - destruct (Gd _ X1) as (Y1 & _). destruct (wo_doc _ _ WO _ _ X1 Y1) as (_ & _ & W & _). congruence.
        - destruct (S_dec i) as [JS|JS].
          + eexists. split; [apply GS; eauto|]. split; auto.
          + exists n. rewrite GK; auto. }
      destruct Q as [(A & B & ->)|[(A & B & ->)| ->]].
      + apply OLD; auto. intros J. destruct (wo_pend _ _ WO _ _ _ Hn I) as (n & X1 & X2 & X3).
        destruct (CF _ _ J X1) as (_ & _ & Y). specialize (Y X3). congruence.
      + simpl in I. destruct (CS _ B) as (m & p & X & _ & _ & _ & _ & Y & _). assert (m = ne) by congruence; subst.
        rewrite (wo_nondoc _ _ WO _ _ Hn Y) in I. destruct I.
      + destruct (Gd _ Hn) as (Y1 & _ & nd' & Z1 & Z2 & Z3 & Z4 & Z5 & Z6 & Z7 & Z8 & _). rewrite Z1 in H. inversion H; subst ne'.
        apply Z8 in I. destruct I as [[I J]|I]; auto.
        destruct (CS _ I) as (m & p & X1 & X2 & X3 & X4 & X5 & X6 & X7). eexists. split; [apply GS; eauto|]. split; auto.
    - intros i n' H P. destruct (gut_inv _ _ H) as (NF & n & Hn & Q). destruct Q as [(A & B & ->)|[(A & B & ->)| ->]].
      + destruct (wo_pending _ _ WO _ _ Hn P) as (X1 & e & ne & X2 & X3 & X4). split; auto. exists e.
        destruct (Nat.eq_dec e d) as [->|E].
        * destruct (Gd _ X3) as (Y1 & _ & nd' & Z1 & Z2 & Z3 & Z4 & Z5 & Z6 & Z7 & Z8 & _). exists nd'. repeat split; auto.
          apply Z8. left; auto.
        * exists ne. repeat split; auto.
          assert (TE : n_type ne = DOCUMENT). { destruct (ntype_eqb (n_type ne) DOCUMENT) eqn:TT; [apply ntype_eqb_eq; auto|].
            apply ntype_eqb_neq in TT. rewrite (wo_nondoc _ _ WO _ _ X3 TT) in X4. destruct X4. }
          rewrite GK; auto.
          -- intros I. destruct (CF _ _ I X3); auto.
          -- intros I. destruct (CS _ I) as (m & p & W & _ & _ & _ & _ & W2 & _). congruence.
      + simpl. split; auto. destruct (CS _ B) as (m & p & X1 & X2 & X3 & X4 & X5 & X6 & X7). assert (m = n) by congruence; subst.
        destruct (wo_owner _ _ WO _ _ _ Hn X5) as [(nd & Y1 & Y2)|[(_ & _ & Y) _]]; [|congruence].
        destruct (Gd _ Y1) as (_ & _ & nd' & Z1 & Z2 & Z3 & Z4 & Z5 & Z6 & Z7 & Z8 & _). exists d, nd'. repeat split; auto.
        apply Z8. right; auto.
      + destruct (Gd _ Hn) as (Y1 & _ & nd' & Z1 & Z2 & Z3 & Z4 & Z5 & _). congruence.
    - intros i n' e H O. destruct (gut_inv _ _ H) as (NF & n & Hn & Q).
      assert (OO : n_owner n = Some e).
      { destruct Q as [(A & B & ->)|[(A & B & ->)| ->]]; auto. destruct (Gd _ Hn) as (Y1 & _ & nd' & Z1 & Z2 & Z3 & _). congruence. }
      destruct (wo_owner _ _ WO _ _ _ Hn OO) as [(ne & X1 & X2)|[X1 X2]].
      + left. eapply doc_kept; eauto.
      + assert (SP : spent n' /\ n' = n).
        { destruct Q as [(A & B & ->)|[(A & B & ->)| ->]]; auto.
          - destruct X1 as (_ & _ & W). destruct (CS _ B) as (m & p & X3 & X4 & _). congruence.
          - destruct (Gd _ Hn) as (Y1 & _). destruct X1 as (W & _). congruence. }
        right. split; [tauto|]. unfold ch', gut_ch. rewrite X2. rewrite if_same. auto.
    - intros i n' H O. destruct (gut_inv _ _ H) as (NF & n & Hn & Q). destruct Q as [(A & B & ->)|[(A & B & ->)| ->]].
      + apply (wo_noowner _ _ WO _ _ Hn O).
      + apply (wo_noowner _ _ WO _ _ Hn) in O. simpl. tauto.
      + destruct (Gd _ Hn) as (Y1 & _ & nd' & Z1 & Z2 & Z3 & _). destruct (wo_doc _ _ WO _ _ Hn Y1). congruence.
    - intros i n' p np' H P Hp. destruct (gut_inv _ _ H) as (NF & n & Hn & Q). destruct Q as [(A & B & ->)|[(A & B & ->)| ->]].
      + destruct (gut_inv _ _ Hp) as (NFp & np & Hnp & Qp). 
        assert (n_owner np' = n_owner np).
        { destruct Qp as [(A' & B' & ->)|[(A' & B' & ->)| ->]]; auto. destruct (Gd _ Hnp) as (Y1 & _ & nd' & Z1 & Z2 & Z3 & _). congruence. }
        rewrite H0. apply (wo_child _ _ WO i n p); auto.
      + discriminate.
      + destruct (Gd _ Hn) as (Y1 & _ & nd' & Z1 & Z2 & Z3 & Z4 & _). congruence.
    - intros i n' e H P T O. destruct (gut_inv _ _ H) as (NF & n & Hn & Q). destruct Q as [(A & B & ->)|[(A & B & ->)| ->]].
      + destruct (wo_top _ _ WO _ _ _ Hn P T O) as [X|[X Y]]; auto. right. split; auto. unfold ch', gut_ch. rewrite Y. apply if_same.
      + left. reflexivity.
      + destruct (Gd _ Hn) as (Y1 & _ & nd' & Z1 & Z2 & _). congruence.
  Qed.

  Lemma gut_wr_top : (forall i n, h i = Some n -> n_parent n = None -> n_type n <> DOCUMENT -> ~ In i F -> (n_ref n > 0)%N) ->
    forall i n', h' i = Some n' -> n_parent n' = None -> n_type n' <> DOCUMENT -> (n_ref n' > 0)%N.
  Proof.
    intros WR i n' H P T. destruct (gut_inv _ _ H) as (NF & n & Hn & Q). destruct Q as [(A & B & ->)|[(A & B & ->)| ->]].
    - apply (WR i); auto.
    - destruct (CS _ B) as (m & p & X1 & X2 & X3 & X4 & _). simpl. congruence.
    - destruct (Gd _ Hn) as (Y1 & _ & nd' & Z1 & Z2 & _). congruence.
  Qed.

  Lemma gut_wr_doc : (forall i n, h i = Some n -> n_type n = DOCUMENT -> i <> d -> (n_ref n > 0)%N \/ (n_pend n <> [] /\ ch i = [])) ->
    forall i n', i <> d -> h' i = Some n' -> n_type n' = DOCUMENT -> (n_ref n' > 0)%N \/ (n_pend n' <> [] /\ ch' i = []).
  Proof.
    intros WR i n' ID H T. destruct (gut_inv _ _ H) as (NF & n & Hn & Q). destruct Q as [(A & B & ->)|[(A & B & ->)| ->]].
    - destruct (WR i n Hn T ID) as [X|[X Y]]; auto. right. split; auto. unfold ch', gut_ch. rewrite Y. apply if_same.
    - destruct (CS _ B) as (m & p & X1 & X2 & X3 & X4 & X5 & X6 & X7). simpl in T. congruence.
    - congruence.
  Qed.

  Lemma gut_wfL : forall nx, wfL h nx -> wfL h' nx.
  Proof. intros nx L i n' H. destruct (gut_inv _ _ H) as (_ & n & Hn & _). eauto. Qed.
End Gut.

(** A document with nothing left in it can be freed. *)
Section DocFree.
  Variables (h : heap) (ch : id -> list id) (d : id) (nd : node).
  Hypothesis WT : wfT h ch.
  Hypothesis WO : wfO h ch.
  Hypothesis Hd : h d = Some nd.
  Hypothesis Td : n_type nd = DOCUMENT.
  Hypothesis Pd : n_pend nd = [].
  Hypothesis Cd : ch d = [].

  Let h' := hupd h d None.
  Lemma df_other : forall j, j <> d -> h' j = h j.
  Proof. intros j J. unfold h', hupd. apply Nat.eqb_neq in J. rewrite J. auto. Qed.
  Lemma df_inv : forall j n, h' j = Some n -> j <> d /\ h j = Some n.
  Proof. intros j n H. unfold h', hupd in H. destruct (Nat.eqb_spec j d); [discriminate|auto]. Qed.
  Lemma df_nokid : forall j n, h j = Some n -> n_parent n <> Some d.
  Proof.
    intros j n Hj P. destruct (wt_parent _ _ WT _ _ _ Hj P) as (np & A & B & C). assert (np = nd) by congruence; subst.
    destruct (ntype_eqb (n_type n) ATTRIBUTE) eqn:TT.
    - apply ntype_eqb_eq in TT. specialize (C TT). destruct (wt_attrs _ _ WT _ _ A) as (_ & X & _). rewrite X in Td; [discriminate|].
      intros Q; rewrite Q in C; destruct C.
    - apply ntype_eqb_neq in TT. destruct (B TT) as [X _]. rewrite Cd in X. destruct X.
  Qed.
  (** Whatever still names it as owner is a spent fragment. *)
  Lemma df_spent_gen : forall j, rooted h j -> forall n, h j = Some n -> j <> d -> n_owner n = Some d -> spent n /\ ch j = [].
  Proof.
    intros j R. induction R as [j n Hn Pn|j n p Hn Pn R IH]; intros m Hm JD OW; assert (m = n) by congruence; subst.
    - destruct (ntype_eqb (n_type n) DOCUMENT) eqn:TT.
      + apply ntype_eqb_eq in TT. destruct (wo_doc _ _ WO _ _ Hn TT). congruence.
      + apply ntype_eqb_neq in TT. destruct (wo_top _ _ WO _ _ _ Hn Pn TT OW) as [X|X]; auto.
        destruct (wo_pending _ _ WO _ _ Hn X) as (_ & e & ne & Y1 & Y2 & Y3). assert (e = d) by congruence; subst.
        assert (ne = nd) by congruence; subst. rewrite Pd in Y3. destruct Y3.
    - exfalso. destruct (wt_parent _ _ WT _ _ _ Hn Pn) as (np & A & B & C).
      assert (PD : p <> d) by (intros ->; exact (df_nokid _ _ Hn Pn)).
      destruct (IH np A PD) as [(S1 & _) S2]. { rewrite <- (wo_child _ _ WO _ _ _ _ Hn Pn A). auto. }
      destruct (ntype_eqb (n_type n) ATTRIBUTE) eqn:TT.
      + apply ntype_eqb_eq in TT. specialize (C TT). destruct (wt_attrs _ _ WT _ _ A) as (_ & X & _). rewrite X in S1; [discriminate|].
        intros Q; rewrite Q in C; destruct C.
      + apply ntype_eqb_neq in TT. destruct (B TT) as [X _]. rewrite S2 in X. destruct X.
  Qed.

  Lemma df_wfT : wfT h' ch.
  Proof.
    constructor.
    - intros i H. destruct (Nat.eq_dec i d) as [->|E]; auto. rewrite df_other in H by auto. apply (wt_dead _ _ WT); auto.
    - intros p n H. apply df_inv in H. apply (wt_ends _ _ WT). tauto.
    - intros p. eapply seg_ext; [|apply (wt_seg _ _ WT)]. intros c n I Hc. exists n. split; [|repeat split].
      rewrite df_other; auto. intros ->. destruct (wt_child _ _ WT _ _ I) as (m & _ & X1 & _ & _ & X4 & _).
      assert (m = nd) by congruence; subst. destruct (wo_doc _ _ WO _ _ Hd Td) as (_ & Q & _). congruence.
    - apply (wt_nodup _ _ WT).
    - intros i n p H P. apply df_inv in H. destruct H as [E H]. destruct (wt_parent _ _ WT _ _ _ H P) as (np & A & B).
      exists np. split; auto. rewrite df_other; auto. intros ->. exact (df_nokid _ _ H P).
    - intros e ne H. apply df_inv in H. destruct H as [E H]. destruct (wt_attrs _ _ WT _ _ H) as (A & B & C). repeat split; auto.
      intros a I. destruct (C _ I) as (na & X1 & X2 & X3). exists na. repeat split; auto. rewrite df_other; auto. intros ->. congruence.
    - intros i [n H]. apply df_inv in H. destruct H as [E H].
      assert (R : rooted h i) by (apply (wt_rooted _ _ WT); exists n; auto). clear H n.
      induction R as [i n Hn Pn|i n p Hn Pn R IH].
      + apply (rooted_top _ _ n); auto. rewrite df_other; auto.
      + apply (rooted_step _ _ n p); auto. { rewrite df_other; auto. } apply IH. intros ->. exact (df_nokid _ _ Hn Pn).
  Qed.

  Lemma df_wfO : wfO h' ch.
  Proof.
    constructor.
    - intros i n H T. apply df_inv in H. apply (wo_doc _ _ WO); tauto.
    - intros i n H T. apply df_inv in H. apply (wo_nondoc _ _ WO i); tauto.
    - intros e ne i H I. apply df_inv in H. destruct H as [E H]. destruct (wo_pend _ _ WO _ _ _ H I) as (n & A & B & C).
      exists n. repeat split; auto. rewrite df_other; auto. intros ->. assert (n = nd) by congruence; subst.
      destruct (wo_doc _ _ WO _ _ Hd Td) as (_ & _ & Q & _). congruence.
    - intros i n H P. apply df_inv in H. destruct H as [E H]. destruct (wo_pending _ _ WO _ _ H P) as (A & e & ne & B & C & D).
      split; auto. exists e, ne. repeat split; auto. rewrite df_other; auto. intros ->. assert (ne = nd) by congruence; subst. rewrite Pd in D. destruct D.
    - intros i n e H O. apply df_inv in H. destruct H as [E H]. destruct (Nat.eq_dec e d) as [->|ED].
      + right. eapply df_spent_gen; eauto. apply (wt_rooted _ _ WT). exists n; auto.
      + rewrite df_other by auto. apply (wo_owner _ _ WO); auto.
    - intros i n H O. apply df_inv in H. apply (wo_noowner _ _ WO i); tauto.
    - intros i n p np H P Hp. apply df_inv in H. apply df_inv in Hp. apply (wo_child _ _ WO i n p); tauto.
    - intros i n e H P T O. apply df_inv in H. apply (wo_top _ _ WO i n e); tauto.
  Qed.
End DocFree.
