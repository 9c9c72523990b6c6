(** Correctness of the circular list. *)
From Coq Require Import List Arith Bool Lia.
From Verif Require Import Base RingModel RingSpec.
Import ListNotations.
Local Open Scope dom_scope.

Lemma NoDup_app : forall A (a b : list A), NoDup a -> NoDup b -> (forall x, In x a -> ~ In x b) -> NoDup (a ++ b).
Proof.
  intros A a b Na Nb D. induction a as [|x a]; auto. simpl. inversion Na; subst. constructor.
  - rewrite in_app_iff. intros [I|I]; auto. apply (D x); simpl; auto.
  - apply IHa; auto. intros y I. apply D. simpl; auto.
Qed.

(** ** Chains of cells linked both ways *)
Definition linked (h : rheap) (a b : nat) : Prop :=
  (exists c, h a = Some c /\ snd c = Some b) /\ (exists c, h b = Some c /\ fst c = Some a).
Fixpoint chain (h : rheap) (l : list nat) : Prop :=
  match l with
  | a :: ((b :: _) as r) => linked h a b /\ chain h r
  | _ => True
  end.
Definition ring (h : rheap) (a : nat) (l : list nat) : Prop := NoDup (a :: l) /\ chain h (a :: l ++ [a]).

Lemma chain_app : forall h l x m, chain h (l ++ x :: m) <-> chain h (l ++ [x]) /\ chain h (x :: m).
Proof.
  induction l as [|a l]; intros x m.
  - simpl. tauto.
  - destruct l as [|b l]; simpl in *.
    + specialize (IHl x m). simpl in IHl. destruct m; simpl in *; tauto.
    + specialize (IHl x m). tauto.
Qed.

Lemma chain_frame : forall h h' l, (forall x, In x l -> h' x = h x) -> chain h l -> chain h' l.
Proof.
  intros h h' l. induction l as [|a l]; auto. intros E C. destruct l as [|b l]; auto.
  destruct C as [[A B] C]. split.
  - split; [rewrite E by (simpl; auto)|rewrite E by (simpl; auto)]; auto.
  - apply IHl; auto. intros; apply E; right; auto.
Qed.

Lemma ring_fwd : forall h a l x, chain h (x :: l ++ [a]) -> ~ In a l -> rwalk snd h a x l.
Proof.
  intros h a l. induction l as [|b l]; intros x C NI; simpl in C; destruct C as [[(c & A & B) _] C].
  - econstructor; eauto.
  - econstructor; eauto. { intros ->. apply NI. simpl; auto. } apply IHl; auto. intros I. apply NI. simpl; auto.
Qed.
Lemma ring_bwd : forall h a l x, chain h (a :: rev l ++ [x]) -> ~ In a l -> rwalk fst h a x l.
Proof.
  intros h a l. induction l as [|b l]; intros x C NI.
  - simpl in C. destruct C as [[_ (c & A & B)] _]. econstructor; eauto.
  - cbn [rev] in C. rewrite <- app_assoc in C. change (a :: rev l ++ [b] ++ [x]) with ((a :: rev l) ++ b :: [x]) in C.
    apply chain_app in C. destruct C as [C1 C2]. simpl in C2. destruct C2 as [[_ (c & A & B)] _].
    econstructor; eauto. { intros ->. apply NI. simpl; auto. } apply IHl; [exact C1|]. intros I. apply NI. simpl; auto.
Qed.
Lemma ring_holds : forall h a l, ring h a l -> holds_list h a l.
Proof.
  intros h a l [N C]. assert (NI : ~ In a l) by (inversion N; auto). split; auto. split.
  - apply ring_fwd; auto.
  - apply ring_bwd; rewrite ?rev_involutive; auto. rewrite <- in_rev. auto.
Qed.

Lemma rset_same : forall h i c, rset h i c i = Some c.
Proof. intros. unfold rset. rewrite Nat.eqb_refl. auto. Qed.
Lemma rset_other : forall h i c j, j <> i -> rset h i c j = h j.
Proof. intros. unfold rset. apply Nat.eqb_neq in H. rewrite H. auto. Qed.

Lemma rstore_ok : forall h i c f, h i = Some c -> rstore (Some i) f h = Ok tt (rset h i (f c)).
Proof. intros. unfold rstore. rewrite H. auto. Qed.
Lemma rload_ok : forall h i c, h i = Some c -> rload (Some i) h = Ok c h.
Proof. intros. unfold rload. rewrite H. auto. Qed.
Lemma rbind_ok : forall S A B (m : M S A) (f : A -> M S B) s a s', m s = Ok a s' -> bind m f s = f a s'.
Proof. intros. unfold bind. rewrite H. auto. Qed.

Lemma init_ok : forall h e c, h e = Some c -> exists h', list_init e h = Ok tt h' /\ h' e = Some (Some e, Some e) /\ (forall j, j <> e -> h' j = h j).
Proof.
  intros h e c H. unfold list_init. rewrite (rbind_ok _ _ _ _ _ _ _ _ (rstore_ok _ _ _ _ H)).
  erewrite rstore_ok by apply rset_same. eexists. split; [reflexivity|]. split; [apply rset_same|].
  intros j J. rewrite !rset_other; auto.
Qed.

(** The cell before [a] in its ring, and after [a]. *)
Definition pre (a : nat) (l : list nat) : nat := List.last l a.

Lemma ring_prev : forall h a l, ring h a l -> exists c, h a = Some c /\ fst c = Some (pre a l).
Proof.
  intros h a l [_ C]. destruct l as [|b l] using rev_ind.
  - simpl in C. destruct C as [[_ (c & A & B)] _]. exists c. auto.
  - unfold pre. rewrite last_last. rewrite <- app_assoc in C. change (a :: l ++ [b] ++ [a]) with ((a :: l) ++ b :: [a]) in C.
    apply chain_app in C. destruct C as [_ [[_ (c & A & B)] _]]. exists c; auto.
Qed.
Lemma ring_live : forall h a l x, ring h a l -> In x (a :: l) -> exists c, h x = Some c.
Proof.
  intros h a l x [_ C] I. assert (G : forall m y, chain h (y :: m ++ [a]) -> In x (y :: m) -> exists c, h x = Some c).
  { induction m as [|b m]; intros y CY IY; simpl in CY; destruct CY as [[(c & A & B) _] CY].
    - destruct IY as [->|[]]. eauto.
    - destruct IY as [->|IY]; eauto. }
  eauto.
Qed.

Lemma append_ok : forall h a l e ce, ring h a l -> h e = Some ce -> ~ In e (a :: l) ->
  exists h', list_append a e h = Ok tt h' /\ ring h' a (l ++ [e]) /\ (forall j, ~ In j (a :: e :: l) -> h' j = h j).
Proof.
  intros h a l e ce R He NI. pose proof R as [N C]. destruct (ring_prev _ _ _ R) as (ca & Ha & Pa).
  assert (NE : e <> a) by (intros ->; apply NI; simpl; auto).
  unfold list_append. rewrite (rbind_ok _ _ _ _ _ _ _ _ (rstore_ok _ _ _ _ He)).
  set (h1 := rset h e (set_rnext (Some a) ce)).
  assert (A1 : h1 a = Some ca) by (unfold h1; rewrite rset_other; auto).
  rewrite (rbind_ok _ _ _ _ _ _ _ _ (rload_ok _ _ _ A1)).
  assert (E1 : h1 e = Some (set_rnext (Some a) ce)) by apply rset_same.
  rewrite (rbind_ok _ _ _ _ _ _ _ _ (rstore_ok _ _ _ _ E1)). set (h2 := rset h1 e _).
  assert (A2 : h2 a = Some ca) by (unfold h2; rewrite rset_other; auto).
  rewrite (rbind_ok _ _ _ _ _ _ _ _ (rload_ok _ _ _ A2)). rewrite Pa.
  set (p := pre a l) in *. assert (PI : In p (a :: l)).
  { unfold p, pre. destruct l as [|b l] using rev_ind; [simpl; auto|]. rewrite last_last. right. apply in_or_app. simpl; auto. }
  assert (PE : p <> e) by (intros ->; auto).
  destruct (ring_live _ _ _ _ R PI) as (cp & Hp).
  assert (P2 : h2 p = Some cp) by (unfold h2, h1; rewrite !rset_other; auto).
  rewrite (rbind_ok _ _ _ _ _ _ _ _ (rstore_ok _ _ _ _ P2)). set (h3 := rset h2 p _).
  assert (A3 : exists c3, h3 a = Some c3 /\ snd c3 = (if Nat.eqb a p then Some e else snd ca)).
  { unfold h3. destruct (Nat.eqb a p) eqn:Q.
    - apply Nat.eqb_eq in Q. rewrite Q. rewrite rset_same. eauto.
    - apply Nat.eqb_neq in Q. rewrite rset_other by auto. eauto. }
  destruct A3 as (c3 & A3 & S3). rewrite (rstore_ok _ _ _ _ A3). eexists. split; [reflexivity|].
  set (h4 := rset h3 a _).
  assert (OTH : forall j, j <> a -> j <> e -> j <> p -> h4 j = h j).
  { intros j J1 J2 J3. unfold h4, h3, h2, h1. rewrite !rset_other; auto. }
  assert (E4 : h4 e = Some (Some p, Some a)).
  { unfold h4, h3, h2. rewrite !rset_other by auto. rewrite rset_same. unfold set_rprev, set_rnext. simpl. rewrite Pa. auto. }
  assert (A4 : exists c, h4 a = Some c /\ fst c = Some e /\ snd c = snd c3).
  { unfold h4. rewrite rset_same. eauto. }
  assert (P4 : exists c, h4 p = Some c /\ snd c = Some e /\ (p <> a -> fst c = fst cp)).
  { unfold h4. destruct (Nat.eq_dec p a) as [->|Q].
    - rewrite rset_same. eexists. split; [reflexivity|]. split; [|intros X; congruence]. simpl. rewrite S3, Nat.eqb_refl. auto.
    - rewrite rset_other by auto. unfold h3. rewrite rset_same. eexists. split; [reflexivity|]. simpl. auto. }
  split.
  - split.
    + simpl. constructor.
      * inversion N; subst. rewrite in_app_iff. simpl. intros [I|[I|[]]]; auto.
      * inversion N; subst. apply NoDup_app; auto. { repeat constructor; auto. } intros x X1 [<-|[]]. apply NI. right; auto.
    + rewrite <- app_assoc. change (a :: l ++ [e] ++ [a]) with ((a :: l) ++ e :: [a]). apply chain_app. split.
      * destruct l as [|b l _] using rev_ind.
        { simpl. split; auto. split; [|rewrite E4; eauto]. destruct A4 as (c & X & Y & Z). exists c. split; auto. rewrite Z, S3.
          assert (Q : p = a) by reflexivity. rewrite Q, Nat.eqb_refl. auto. }
        assert (PB : p = b) by (unfold p, pre; apply last_last). clearbody h4 h3 h2 h1. clearbody p. subst p.
        change ((a :: l ++ [b]) ++ [e]) with (a :: (l ++ [b]) ++ [e]). rewrite <- app_assoc. change (a :: l ++ [b] ++ [e]) with ((a :: l) ++ b :: [e]). apply chain_app.
        rewrite <- app_assoc in C. change (a :: l ++ [b] ++ [a]) with ((a :: l) ++ b :: [a]) in C. apply chain_app in C. destruct C as [C1 C2].
        assert (NB : b <> a). { inversion N; subst. intros ->. apply H1. apply in_or_app. simpl; auto. }
        split.
        { (* only fst of a and snd of b changed *)
          assert (G : forall m y, chain h (y :: m ++ [b]) -> ~ In e (y :: m) -> ~ In b (y :: m) -> (~ In a m) -> chain h4 (y :: m ++ [b])).
          { induction m as [|z m]; intros y CY N1 N2 N3; simpl in CY |- *; destruct CY as [[(c & X1 & X2) (c' & X3 & X4)] CY].
            - split; auto. split.
              + destruct (Nat.eq_dec y a) as [->|YA].
                * destruct A4 as (c4 & Y1 & Y2 & Y3). exists c4. split; auto. rewrite Y3, S3. apply Nat.eqb_neq in NB. rewrite Nat.eqb_sym, NB. congruence.
                * exists c. rewrite OTH; auto; intros ->; [apply N1|apply N2]; simpl; auto.
              + destruct P4 as (c4 & Y1 & Y2 & Y3). exists c4. split; auto. rewrite Y3 by auto. congruence.
            - split.
              + split.
                * destruct (Nat.eq_dec y a) as [->|YA].
                  { destruct A4 as (c4 & Y1 & Y2 & Y3). exists c4. split; auto. rewrite Y3, S3. apply Nat.eqb_neq in NB. rewrite Nat.eqb_sym, NB. congruence. }
                  { exists c. rewrite OTH; auto; intros ->; [apply N1|apply N2]; simpl; auto. }
                * exists c'. rewrite OTH; auto; intros ->; [apply N3|apply N1|apply N2]; simpl; auto.
              + apply IHm; auto; intros I; [apply N1|apply N2|apply N3]; simpl; auto. }
          apply G; auto.
          - intros I. apply NI. simpl in *. rewrite in_app_iff. tauto.
          - inversion N; subst. intros [I|I]; [congruence|]. apply NoDup_remove_2 in H2. apply H2. rewrite app_nil_r. auto.
          - inversion N; subst. intros I. apply H1. apply in_or_app. auto. }
        { simpl. split; auto. split; [|rewrite E4; eauto]. destruct P4 as (c & X & Y & _). eauto. }
      * simpl. split; auto. split; [rewrite E4; eauto|]. destruct A4 as (c & X & Y & _). eauto.
  - intros j NJ. apply OTH; intros ->; apply NJ; simpl; auto. destruct PI; auto.
Qed.

(** Deleting the entry [e] between [x] and [y] of a chain. *)
Lemma del_ok : forall h a l1 e l2, ring h a (l1 ++ e :: l2) ->
  exists h', list_del e h = Ok tt h' /\ ring h' a (l1 ++ l2) /\ h' e = Some (Some e, Some e) /\ (forall j, ~ In j (a :: l1 ++ e :: l2) -> h' j = h j).
Proof.
  intros h a l1 e l2 R. pose proof R as [N C].
  set (x := pre a l1). set (y := hd a l2).
  assert (CX : chain h (a :: l1 ++ [e])). { rewrite <- app_assoc in C. change (a :: l1 ++ (e :: l2) ++ [a]) with ((a :: l1) ++ e :: l2 ++ [a]) in C. apply chain_app in C. apply C. }
  assert (CY : chain h (e :: l2 ++ [a])). { rewrite <- app_assoc in C. change (a :: l1 ++ (e :: l2) ++ [a]) with ((a :: l1) ++ e :: l2 ++ [a]) in C. apply chain_app in C. apply C. }
  assert (NE : ~ In e (a :: l1 ++ l2)). { change (a :: l1 ++ e :: l2) with ((a :: l1) ++ e :: l2) in N. apply NoDup_remove_2 in N. exact N. }
  assert (ND : NoDup (a :: l1 ++ l2)). { change (a :: l1 ++ e :: l2) with ((a :: l1) ++ e :: l2) in N. apply NoDup_remove_1 in N. exact N. }
  assert (XE : exists cx ce, h x = Some cx /\ snd cx = Some e /\ h e = Some ce /\ fst ce = Some x /\ chain h (match l1 with [] => [a] | _ => a :: l1 end)).
  { unfold x, pre. destruct l1 as [|b m _] using rev_ind.
    - simpl in CX. destruct CX as [[(c & A & B) (c' & A' & B')] _]. exists c, c'. simpl. auto.
    - rewrite last_last. rewrite <- app_assoc in CX. change (a :: m ++ [b] ++ [e]) with ((a :: m) ++ b :: [e]) in CX. apply chain_app in CX.
      destruct CX as [CA [[(c & A & B) (c' & A' & B')] _]]. exists c, c'. repeat split; auto. destruct (m ++ [b]) eqn:Q; [destruct m; discriminate|]. rewrite <- Q. exact CA. }
  assert (YE : exists cy ce, h y = Some cy /\ fst cy = Some e /\ h e = Some ce /\ snd ce = Some y /\ chain h (y :: tl (l2 ++ [a]))).
  { unfold y. destruct l2 as [|b m]; simpl in CY; destruct CY as [[(c & A & B) (c' & A' & B')] CY']; exists c', c; simpl; auto 6. }
  destruct XE as (cx & ce & Hx & Sx & He & Fe & CX'). destruct YE as (cy & ce' & Hy & Fy & He' & Se & CY'). assert (ce' = ce) by congruence; subst ce'.
  assert (XI : In x (a :: l1)). { unfold x, pre. destruct l1 as [|b m _] using rev_ind; simpl; auto. rewrite last_last. right. apply in_or_app. simpl; auto. }
  assert (YI : In y (a :: l2)). { unfold y. destruct l2; simpl; auto. }
  assert (XN : x <> e). { intros Q. apply NE. rewrite <- Q. simpl in *. rewrite in_app_iff. tauto. }
  assert (YN : y <> e). { intros Q. apply NE. rewrite <- Q. simpl in *. rewrite in_app_iff. tauto. }
  unfold list_del. rewrite (rbind_ok _ _ _ _ _ _ _ _ (rload_ok _ _ _ He)). rewrite Fe.
  rewrite (rbind_ok _ _ _ _ _ _ _ _ (rstore_ok _ _ _ _ Hx)). set (h1 := rset h x _).
  assert (E1 : h1 e = Some ce) by (unfold h1; rewrite rset_other; auto).
  rewrite (rbind_ok _ _ _ _ _ _ _ _ (rload_ok _ _ _ E1)). rewrite Se, Fe.
  assert (Y1 : exists c1, h1 y = Some c1 /\ snd c1 = if Nat.eqb y x then Some y else snd cy).
  { unfold h1. destruct (Nat.eqb y x) eqn:Q.
    - apply Nat.eqb_eq in Q. rewrite Q, rset_same. eexists. split; [reflexivity|]. simpl. rewrite Se, Q. auto.
    - apply Nat.eqb_neq in Q. rewrite rset_other by auto. eauto. }
  destruct Y1 as (c1 & Y1 & S1). rewrite (rbind_ok _ _ _ _ _ _ _ _ (rstore_ok _ _ _ _ Y1)). set (h2 := rset h1 y _).
  assert (E2 : h2 e = Some ce) by (unfold h2; rewrite rset_other; auto).
  rewrite (rbind_ok _ _ _ _ _ _ _ _ (rstore_ok _ _ _ _ E2)). erewrite rstore_ok by apply rset_same.
  eexists. split; [reflexivity|]. set (h4 := rset _ e _).
  assert (OTH : forall j, j <> x -> j <> e -> j <> y -> h4 j = h j).
  { intros j J1 J2 J3. unfold h4. rewrite !rset_other by auto. unfold h2, h1. rewrite !rset_other; auto. }
  assert (X4 : exists c, h4 x = Some c /\ snd c = Some y /\ (x <> y -> fst c = fst cx)).
  { unfold h4. rewrite !rset_other by auto. unfold h2. destruct (Nat.eq_dec x y) as [Q|Q].
    - rewrite Q, rset_same. eexists. split; [reflexivity|]. split; [|congruence]. simpl. rewrite S1, Q, Nat.eqb_refl. auto.
    - rewrite rset_other by auto. unfold h1. rewrite rset_same. eexists. split; [reflexivity|]. simpl. auto. }
  assert (Y4 : exists c, h4 y = Some c /\ fst c = Some x /\ (x <> y -> snd c = snd cy)).
  { unfold h4. rewrite !rset_other by auto. unfold h2. rewrite rset_same. eexists. split; [reflexivity|]. simpl. split; auto. intros Q. rewrite S1.
    destruct (Nat.eqb y x) eqn:Z; auto. apply Nat.eqb_eq in Z. congruence. }
  split; [|split].
  - split; auto.
    (* next fields except x's, and prev fields except y's, are unchanged *)
    assert (KN : forall j c, h j = Some c -> j <> e -> j <> x -> exists c', h4 j = Some c' /\ snd c' = snd c).
    { intros j c J1 J2 J3. destruct (Nat.eq_dec j y) as [->|Q].
      - destruct Y4 as (c' & A & _ & B). exists c'. split; auto. rewrite B by auto. congruence.
      - exists c. rewrite OTH; auto. }
    assert (KP : forall j c, h j = Some c -> j <> e -> j <> y -> exists c', h4 j = Some c' /\ fst c' = fst c).
    { intros j c J1 J2 J3. destruct (Nat.eq_dec j x) as [->|Q].
      - destruct X4 as (c' & A & _ & B). exists c'. split; auto. rewrite B by auto. congruence.
      - exists c. rewrite OTH; auto. }
    assert (G : forall m z, chain h (z :: m) -> ~ In e (z :: m) -> ~ In x (removelast (z :: m)) -> ~ In y m -> chain h4 (z :: m)).
    { induction m as [|w m]; intros z CZ N1 N2 N3; simpl in CZ; auto. destruct CZ as [[(c & X1 & X2) (c' & X3 & X4')] CZ]. split.
      - split.
        + destruct (KN z c X1) as (d & D1 & D2). { intros ->; apply N1; simpl; auto. } { intros ->. apply N2. simpl. auto. } exists d. split; auto. congruence.
        + destruct (KP w c' X3) as (d & D1 & D2). { intros ->; apply N1; simpl; auto. } { intros ->. apply N3. simpl. auto. } exists d. split; auto. congruence.
      - apply IHm; auto; [intros I; apply N1; simpl; auto| |intros I; apply N3; simpl; auto].
        intros I. apply N2. change (removelast (z :: w :: m)) with (z :: removelast (w :: m)). right. exact I. }
    assert (LXY : linked h4 x y). { split; [destruct X4 as (c & A & B & _)|destruct Y4 as (c & A & B & _)]; eauto. }
    assert (NDa : ~ In a (l1 ++ l2) /\ NoDup (l1 ++ l2)) by (inversion ND; auto). destruct NDa as [NA NL].
    assert (DJ : forall z, In z l1 -> In z l2 -> False).
    { clear - NL. induction l1 as [|w l1]; intros z I J; [inversion I|]. simpl in NL. inversion NL; subst. destruct I as [->|I]; eauto. apply H1. apply in_or_app; auto. }
    assert (P1 : chain h4 (a :: l1)).
    { apply G.
      - destruct l1; auto.
      - intros I. apply NE. simpl in *. rewrite in_app_iff. tauto.
      - unfold x, pre. destruct l1 as [|b m _] using rev_ind; [simpl; auto|]. rewrite last_last. change (a :: m ++ [b]) with ((a :: m) ++ [b]). rewrite removelast_last.
        rewrite <- app_assoc in NL. simpl in NL. apply NoDup_remove_2 in NL. intros [I|I].
        + subst b. apply NA. rewrite <- app_assoc. apply in_or_app. simpl; auto.
        + apply NL. apply in_or_app; auto.
      - intros I. destruct YI as [YI|YI].
        + apply NA. rewrite YI. apply in_or_app; auto.
        + eauto. }
    assert (P2 : chain h4 (y :: tl (l2 ++ [a]))).
    { apply G; auto.
      - intros [I|I]; [auto|]. apply NE. destruct l2 as [|b m]; simpl in *; [tauto|]. rewrite !in_app_iff in *. simpl in *. tauto.
      - assert (Q : removelast (y :: tl (l2 ++ [a])) = l2).
        { unfold y. destruct l2 as [|b m]; simpl hd; simpl tl; auto. change (b :: m ++ [a]) with ((b :: m) ++ [a]). rewrite removelast_last. auto. }
        rewrite Q. intros I. destruct XI as [XI|XI].
        + apply NA. rewrite XI. apply in_or_app; auto.
        + eauto.
      - unfold y. destruct l2 as [|b m]; simpl; auto. intros I. apply in_app_or in I. destruct I as [I|[<-|[]]].
        + clear - NL I. induction l1 as [|z l1]; simpl in NL; inversion NL; subst; auto.
        + apply NA. apply in_or_app. simpl; auto. }
    assert (Q : a :: (l1 ++ l2) ++ [a] = removelast (a :: l1) ++ x :: y :: tl (l2 ++ [a])).
    { assert (Q1 : a :: l1 = removelast (a :: l1) ++ [x]).
      { unfold x, pre. destruct l1 as [|b m _] using rev_ind; auto. rewrite last_last. change (a :: m ++ [b]) with ((a :: m) ++ [b]). rewrite removelast_last. auto. }
      assert (Q2 : l2 ++ [a] = y :: tl (l2 ++ [a])) by (unfold y; destruct l2; auto).
      rewrite <- app_assoc. change (a :: l1 ++ l2 ++ [a]) with ((a :: l1) ++ l2 ++ [a]). rewrite Q1 at 1. rewrite Q2 at 1. rewrite <- app_assoc. auto. }
    rewrite Q. apply chain_app. split.
    + assert (Q1 : removelast (a :: l1) ++ [x] = a :: l1).
      { unfold x, pre. destruct l1 as [|b m _] using rev_ind; auto. rewrite last_last. change (a :: m ++ [b]) with ((a :: m) ++ [b]). rewrite removelast_last. auto. }
      rewrite Q1. exact P1.
    + split; auto.
  - unfold h4. rewrite rset_same. reflexivity.
  - intros j NJ. apply OTH; intros ->; apply NJ; simpl in *; rewrite in_app_iff; simpl; tauto.
Qed.

(** ** Histories *)
Record linv (h : rheap) (q : seqs) : Prop := mkLinv {
  li_ring : forall a l, heads q a = Some l -> ring h a l;
  li_single : forall e, single q e = true -> h e = Some (Some e, Some e);
  li_disj : forall a l b m x, heads q a = Some l -> heads q b = Some m -> In x (a :: l) -> In x (b :: m) -> a = b;
  li_apart : forall e a l, single q e = true -> heads q a = Some l -> ~ In e (a :: l)
}.

Lemma ring_frame : forall h h' a l, ring h a l -> (forall j, In j (a :: l) -> h' j = h j) -> ring h' a l.
Proof.
  intros h h' a l [N C] E. split; auto. eapply chain_frame; [|exact C]. intros x I. apply E. simpl in *. rewrite in_app_iff in I. simpl in I. tauto.
Qed.
Lemma ring_self : forall h a, h a = Some (Some a, Some a) -> ring h a [].
Proof. intros h a H. split; [repeat constructor; auto|]. simpl. split; auto. split; eexists; split; eauto. Qed.

Lemma remove_entry_mid : forall l1 e l2, NoDup (l1 ++ e :: l2) -> remove_entry e (l1 ++ e :: l2) = l1 ++ l2.
Proof.
  intros l1 e l2 N. assert (F : forall l, ~ In e l -> remove_entry e l = l).
  { induction l as [|x l]; auto. intros NI. simpl. destruct (Nat.eqb x e) eqn:Q.
    - apply Nat.eqb_eq in Q. exfalso. apply NI. simpl; auto.
    - simpl. f_equal. apply IHl. intros I; apply NI; simpl; auto. }
  apply NoDup_remove_2 in N. unfold remove_entry. rewrite filter_app. simpl. rewrite Nat.eqb_refl. simpl.
  fold (remove_entry e l1) (remove_entry e l2). rewrite !F; auto; intros I; apply N; apply in_or_app; auto.
Qed.
Lemma remove_entry_none : forall l e, ~ In e l -> remove_entry e l = l.
Proof.
  induction l as [|x l]; auto. intros e NI. simpl. destruct (Nat.eqb x e) eqn:Q.
  - apply Nat.eqb_eq in Q. exfalso. apply NI. simpl; auto.
  - simpl. f_equal. apply IHl. intros I; apply NI; simpl; auto.
Qed.
Lemma remove_entry_in : forall l e x, In x (remove_entry e l) -> In x l /\ x <> e.
Proof. intros l e x I. apply filter_In in I. destruct I as [A B]. split; auto. intros ->. rewrite Nat.eqb_refl in B. discriminate. Qed.

Lemma linv_step : forall h q o, linv h q -> lallowed h q o -> exists h', lexec o h = Ok tt h' /\ linv h' (lmeans q o) /\ (forall j, h' j = None <-> h j = None).
Proof.
  intros h q o V A.
  assert (INIT : forall a, h a <> None -> ~ known q a ->
            exists h', list_init a h = Ok tt h' /\ h' a = Some (Some a, Some a) /\ (forall j, j <> a -> h' j = h j) /\
                       (forall x l, heads q x = Some l -> ~ In a (x :: l)) /\ single q a = false).
  { intros a HA NK. destruct (h a) as [c|] eqn:E; [|congruence]. destruct (init_ok h a c E) as (h' & X & Y & Z). exists h'. repeat (split; auto).
    - intros x l H [->|I]; apply NK; [left; congruence|]. right; right. exists x, l. auto.
    - destruct (single q a) eqn:S; auto. exfalso. apply NK. right; left; auto. }
  destruct o as [a|e|a e|e]; cbn [lallowed lexec lmeans] in *.
  - destruct A as [HA NK]. destruct (INIT a HA NK) as (h' & X & Y & Z & U & S). exists h'. split; auto. split; [constructor; cbn [heads single]|].
    + intros x l H. destruct (Nat.eqb x a) eqn:Q.
      * apply Nat.eqb_eq in Q. inversion H; subst. apply ring_self; auto.
      * eapply ring_frame; [apply (li_ring _ _ V); eauto|]. intros j I. apply Z. intros ->. exact (U _ _ H I).
    + intros e H. rewrite Z; [apply (li_single _ _ V); auto|]. intros ->. congruence.
    + intros x l y m z H1 H2 I1 I2. destruct (Nat.eqb x a) eqn:Q1; destruct (Nat.eqb y a) eqn:Q2; rewrite ?Nat.eqb_eq in *; subst; auto.
      * inversion H1; subst. destruct I1 as [<-|[]]. exfalso. exact (U _ _ H2 I2).
      * inversion H2; subst. destruct I2 as [<-|[]]. exfalso. exact (U _ _ H1 I1).
      * eapply (li_disj _ _ V); eauto.
    + intros e x l H H1. destruct (Nat.eqb x a) eqn:Q.
      * apply Nat.eqb_eq in Q. inversion H1; subst. intros [->|[]]. congruence.
      * eapply (li_apart _ _ V); eauto.
    + intros j. destruct (Nat.eq_dec j a) as [->|Q]; [rewrite Y; split; congruence|rewrite Z; tauto].
  - destruct A as [HA NK]. destruct (INIT e HA NK) as (h' & X & Y & Z & U & S). exists h'. split; auto. split; [constructor; cbn [heads single]|].
    + intros x l H. eapply ring_frame; [apply (li_ring _ _ V); eauto|]. intros j I. apply Z. intros ->. exact (U _ _ H I).
    + intros x H. destruct (Nat.eq_dec x e) as [->|Q]; auto. apply Nat.eqb_neq in Q. rewrite Q in H. apply Nat.eqb_neq in Q. rewrite Z by auto. apply (li_single _ _ V); auto.
    + apply (li_disj _ _ V).
    + intros x a l H H1. destruct (Nat.eq_dec x e) as [->|Q]; auto. apply Nat.eqb_neq in Q. rewrite Q in H. eapply (li_apart _ _ V); eauto.
    + intros j. destruct (Nat.eq_dec j e) as [->|Q]; [rewrite Y; split; congruence|rewrite Z; tauto].
  - destruct A as [HA HE]. destruct (heads q a) as [l|] eqn:HL; [|congruence].
    pose proof (li_ring _ _ V _ _ HL) as R. pose proof (li_apart _ _ V _ _ _ HE HL) as NI.
    destruct (append_ok h a l e _ R (li_single _ _ V _ HE) NI) as (h' & X & Y & Z). exists h'. split; auto. split; [constructor; cbn [heads single]|].
    + intros x m H. destruct (Nat.eqb x a) eqn:Q.
      * apply Nat.eqb_eq in Q. subst. rewrite HL in H. inversion H; subst. auto.
      * apply Nat.eqb_neq in Q. eapply ring_frame; [apply (li_ring _ _ V); eauto|]. intros j I. apply Z. intros J.
        assert (J' : In j (a :: l) \/ j = e) by (simpl in *; intuition auto). destruct J' as [J'|J']; [apply Q; eapply (li_disj _ _ V); eauto|].
        subst. exact (li_apart _ _ V _ _ _ HE H I).
    + intros x H. apply andb_prop in H. destruct H as [H1 H2]. apply negb_true_iff, Nat.eqb_neq in H1. rewrite Z; [apply (li_single _ _ V); auto|].
      intros J. assert (J' : In x (a :: l)) by (simpl in *; intuition congruence). exact (li_apart _ _ V _ _ _ H2 HL J').
    + assert (G : forall x m z, (if Nat.eqb x a then option_map (fun l => l ++ [e]) (heads q x) else heads q x) = Some m -> In z (x :: m) ->
                  (exists m0, heads q x = Some m0 /\ In z (x :: m0)) \/ (x = a /\ z = e)).
      { intros x m z H I. destruct (Nat.eqb x a) eqn:Q; [|eauto]. apply Nat.eqb_eq in Q; subst. rewrite HL in H. inversion H; subst.
        simpl in I. rewrite in_app_iff in I. simpl in I. destruct I as [I|[I|[I|[]]]]; auto; left; exists l; simpl; auto. }
      intros x m y m' z H1 H2 I1 I2. destruct (G _ _ _ H1 I1) as [(m0 & P1 & P2)|[P1 P2]]; destruct (G _ _ _ H2 I2) as [(m1 & P3 & P4)|[P3 P4]]; subst; auto.
      * eapply (li_disj _ _ V); eauto.
      * exfalso. exact (li_apart _ _ V _ _ _ HE P1 P2).
      * exfalso. exact (li_apart _ _ V _ _ _ HE P3 P4).
    + intros x b m H H1 I. apply andb_prop in H. destruct H as [H2 H3]. apply negb_true_iff, Nat.eqb_neq in H2. destruct (Nat.eqb b a) eqn:Q.
      * apply Nat.eqb_eq in Q; subst. rewrite HL in H1. inversion H1; subst. simpl in I. rewrite in_app_iff in I. simpl in I.
        apply (li_apart _ _ V _ _ _ H3 HL). simpl. intuition congruence.
      * exact (li_apart _ _ V _ _ _ H3 H1 I).
    + intros j. destruct (in_dec Nat.eq_dec j (a :: e :: l)) as [I|I]; [|rewrite Z; tauto].
      assert (L1 : exists c, h j = Some c). { destruct I as [<-|[<-|I]]; [apply (ring_live _ _ _ _ R); simpl; auto|rewrite (li_single _ _ V _ HE); eauto|apply (ring_live _ _ _ _ R); simpl; auto]. }
      assert (L2 : exists c, h' j = Some c). { apply (ring_live _ _ _ _ Y). simpl in *. rewrite in_app_iff. simpl. tauto. }
      destruct L1, L2. split; congruence.
  - destruct A as (a & l & HL & I). pose proof (li_ring _ _ V _ _ HL) as R.
    destruct (in_split _ _ I) as (l1 & l2 & ->). destruct (del_ok h a l1 e l2 R) as (h' & X & Y & Z & U).
    assert (ND : NoDup (l1 ++ e :: l2)) by (destruct R as [N _]; inversion N; auto).
    assert (NEA : e <> a). { destruct R as [N _]; inversion N; subst. intros ->. auto. }
    assert (OUT : forall x m, heads q x = Some m -> x <> a -> ~ In e (x :: m)).
    { intros x m H NE J. apply NE. eapply (li_disj _ _ V); eauto. simpl; auto. }
    exists h'. split; auto. split; [constructor; cbn [heads single]|].
    + intros x m H. destruct (heads q x) as [m0|] eqn:HX; [|discriminate]. simpl in H. inversion H; subst m; clear H.
      destruct (Nat.eq_dec x a) as [->|Q].
      * assert (m0 = l1 ++ e :: l2) by congruence; subst m0. rewrite remove_entry_mid by auto. auto.
      * rewrite remove_entry_none by (intros J; apply (OUT _ _ HX Q); simpl; auto).
        eapply ring_frame; [apply (li_ring _ _ V); eauto|]. intros j J. apply U. intros K. apply Q. eapply (li_disj _ _ V); eauto.
    + intros x H. destruct (Nat.eq_dec x e) as [->|Q]; auto. apply Nat.eqb_neq in Q. rewrite Q in H. simpl in H.
      rewrite U; [apply (li_single _ _ V); auto|]. apply (li_apart _ _ V _ _ _ H HL).
    + intros x m y m' z H1 H2 I1 I2. destruct (heads q x) as [m0|] eqn:HX; [|discriminate]. destruct (heads q y) as [m1|] eqn:HY; [|discriminate].
      simpl in H1, H2. inversion H1; inversion H2; subst. eapply (li_disj _ _ V); [exact HX|exact HY| |].
      * destruct I1 as [I1|I1]; [left; exact I1|right; eapply remove_entry_in; eauto].
      * destruct I2 as [I2|I2]; [left; exact I2|right; eapply remove_entry_in; eauto].
    + intros x b m H H1 J. destruct (heads q b) as [m0|] eqn:HB; [|discriminate]. simpl in H1. inversion H1; subst.
      destruct (Nat.eq_dec x e) as [->|Q].
      * destruct J as [J|J]; [|apply remove_entry_in in J; tauto]. subst b. apply NEA. eapply (li_disj _ _ V); eauto; simpl; auto.
      * apply Nat.eqb_neq in Q. rewrite Q in H. apply (li_apart _ _ V _ _ _ H HB). destruct J as [J|J]; [left; auto|right; eapply remove_entry_in; eauto].
    + intros j. destruct (Nat.eq_dec j e) as [->|Q].
      * rewrite Z. destruct (ring_live _ _ _ e R) as (c & C); [simpl; auto|]. rewrite C. split; congruence.
      * destruct (in_dec Nat.eq_dec j (a :: l1 ++ e :: l2)) as [J|J]; [|rewrite U; tauto].
        destruct (ring_live _ _ _ _ R J) as (c & C). assert (L2 : exists c, h' j = Some c).
        { apply (ring_live _ _ _ _ Y). simpl in *. rewrite in_app_iff in *. simpl in J. intuition congruence. }
        destruct L2. split; congruence.
Qed.

Lemma lreach_inv : forall h0 h q, lreach h0 h q -> linv h q.
Proof.
  induction 1.
  - constructor; simpl; intros; discriminate.
  - destruct (linv_step _ _ _ IHlreach H0) as (h2 & A & B & _). assert (h2 = h') by congruence; subst; auto.
Qed.

Lemma has_ok : forall h a l e, ring h a l -> forall fuel, length (a :: l) <= fuel ->
  exists b, list_has fuel a e h = Ok b h /\ (b = true <-> In e (a :: l)).
Proof.
  intros h a l e [N C]. assert (NA : ~ In a l) by (inversion N; auto). unfold list_has.
  assert (G : forall m x fuel, chain h (x :: m ++ [a]) -> ~ In a m -> length (x :: m) <= fuel ->
    exists b, list_has_loop fuel a e (Some x) h = Ok b h /\ (b = true <-> In e (x :: m))).
  { induction m as [|y m]; intros x fuel CX NI LE; (destruct fuel as [|f]; [simpl in LE; lia|]); cbn [list_has_loop];
      (destruct (Nat.eqb x e) eqn:Q; [apply Nat.eqb_eq in Q; exists true; split; [reflexivity|]; simpl; tauto|]); apply Nat.eqb_neq in Q;
      simpl in CX; destruct CX as [[(c & A & B) _] CX]; rewrite (rbind_ok _ _ _ _ _ _ _ _ (rload_ok _ _ _ A)); rewrite B; cbn [opt_eqb].
    - rewrite Nat.eqb_refl. exists false. split; [reflexivity|]. simpl. split; [discriminate|]. intuition congruence.
    - assert (YA : Nat.eqb y a = false). { apply Nat.eqb_neq. intros ->. apply NI. simpl; auto. } rewrite YA.
      destruct (IHm y f CX) as (b & X & Y). { intros I; apply NI; simpl; auto. } { simpl in *. lia. }
      exists b. split; auto. rewrite Y. simpl. intuition congruence. }
  intros fuel LE. apply G; auto.
Qed.

Lemma lists_are_sequences : forall h0 h q, lreach h0 h q ->
  (forall o, lallowed h q o -> exists h', lexec o h = Ok tt h') /\
  (forall a l, heads q a = Some l -> holds_list h a l /\
     forall e fuel, length (a :: l) <= fuel -> exists b, list_has fuel a e h = Ok b h /\ (b = true <-> In e (a :: l))) /\
  (forall e, single q e = true -> holds_list h e []) /\
  (forall a l b m x, heads q a = Some l -> heads q b = Some m -> In x (a :: l) -> In x (b :: m) -> a = b).
Proof.
  intros h0 h q R. pose proof (lreach_inv _ _ _ R) as V. split; [|split; [|split]].
  - intros o A. destruct (linv_step _ _ _ V A) as (h' & X & _). eauto.
  - intros a l H. split; [apply ring_holds; apply (li_ring _ _ V); auto|]. intros e fuel LE. apply has_ok; auto. apply (li_ring _ _ V); auto.
  - intros e S. apply ring_holds. apply ring_self. apply (li_single _ _ V); auto.
  - apply (li_disj _ _ V).
Qed.
