(** What the meanings of attribute calls keep, and the history theorem. *)
From Coq Require Import List Arith NArith Bool Lia ZifyBool ZifyNat ZifyN.
From Verif Require Import Base StringModel StringSpec NameModel RingModel RingSpec RingProofs AttrModel AttrSpec AttrRing AttrProofs AttrRun.
Import ListNotations.
Local Open Scope dom_scope.

Lemma good_more : forall k K Q, good k Q -> k <= K -> good K Q.
Proof.
  intros k K Q [A B C D E F G H I] LE. constructor; auto.
  - intros a x X. specialize (D a x X). lia.
  - intros e y Y. specialize (I e y Y). lia.
Qed.

Lemma good_put : forall K Q a x x', good K Q -> q_at Q a = Some x -> a_parent x' = a_parent x -> a_local x' = a_local x -> attr_ok x' ->
  (a_ref x' <= N.of_nat K)%N -> (a_parent x = None -> (0 < a_ref x')%N) -> good K (put_at Q a (Some x')).
Proof.
  intros K Q a x x' [A B C D E F G H I] X P1 P2 OK R HELD. constructor; auto; cbn [put_at q_el q_at q_nel q_nat].
  - intros b z. destruct (put_cases _ (q_at Q) a (Some x') b) as [[-> P]|[N P]]; rewrite P; eauto.
  - intros b z. destruct (put_cases _ (q_at Q) a (Some x') b) as [[-> P]|[N P]]; rewrite P; intros Z; [inversion Z; subst; auto|eauto].
  - intros b z. destruct (put_cases _ (q_at Q) a (Some x') b) as [[-> P]|[N P]]; rewrite P; intros Z; [inversion Z; subst; auto|eauto].
  - intros b z. destruct (put_cases _ (q_at Q) a (Some x') b) as [[-> P]|[N P]]; rewrite P; intros Z PZ; [inversion Z; subst|eauto]. apply HELD. congruence.
  - intros b z e. destruct (put_cases _ (q_at Q) a (Some x') b) as [[-> P]|[N P]]; rewrite P; intros Z PZ; [inversion Z; subst|eauto]. eapply F; eauto. congruence.
  - intros e y n Y IN. destruct (G e y n Y IN) as (z & Z & PZ & LZ).
    destruct (put_cases _ (q_at Q) a (Some x') (l_attr n)) as [[EA P]|[N P]]; rewrite P; [|exists z; auto].
    exists x'. split; auto. rewrite <- EA in X. assert (z = x) by congruence. subst z. split; congruence.
Qed.

Lemma good_gain : forall K Q e y a ns nm x nt, good K Q -> q_el Q e = Some y -> (forall z, q_at Q a = Some z -> a_parent z = None) ->
  q_nat Q <= nt -> a < nt -> a_local x = nm -> attr_ok x -> (a_ref x <= N.of_nat K)%N -> S (length (q_ents y)) <= K ->
  good K (mkAttrs (q_el (gain Q e y a ns nm x)) (q_at (gain Q e y a ns nm x)) (q_nel Q) nt).
Proof.
  intros K Q e y a ns nm x nt [A B C D E F G H I] Y FREE NT AN LX OK R LEN.
  set (y' := mkQel (q_doc y) (q_ro y) (q_quirks y) (q_ents y ++ [mkLnode a nm ns]) (if is_class ns nm then class_split (c_string (value x)) [] else q_cls y)).
  assert (ELS : forall e', (e' = e /\ q_el (gain Q e y a ns nm x) e' = Some y') \/ (e' <> e /\ q_el (gain Q e y a ns nm x) e' = q_el Q e')).
  { intros e'. unfold gain. cbn [put_at put_el q_el]. apply put_cases. }
  assert (ATS : forall b, (b = a /\ q_at (gain Q e y a ns nm x) b = Some (set_aparent (Some e) x)) \/ (b <> a /\ q_at (gain Q e y a ns nm x) b = q_at Q b)).
  { intros b. unfold gain. cbn [put_at put_el q_at]. apply put_cases. }
  assert (NOT : forall e0 y0 n, q_el Q e0 = Some y0 -> In n (q_ents y0) -> l_attr n <> a).
  { intros e0 y0 n Y0 IN EA. destruct (G e0 y0 n Y0 IN) as (z & Z & PZ & _). rewrite EA in Z. apply FREE in Z. congruence. }
  constructor; cbn [q_el q_at q_nel q_nat].
  - intros e' z. destruct (ELS e') as [[-> P]|[N P]]; rewrite P; eauto.
  - intros b z. destruct (ATS b) as [[-> P]|[N P]]; rewrite P; intros Z; auto. apply B in Z. lia.
  - intros b z. destruct (ATS b) as [[-> P]|[N P]]; rewrite P; intros Z; [inversion Z; subst|eauto]. apply (attr_ok_same x); auto.
  - intros b z. destruct (ATS b) as [[-> P]|[N P]]; rewrite P; intros Z; [inversion Z; subst|eauto]. auto.
  - intros b z. destruct (ATS b) as [[-> P]|[N P]]; rewrite P; intros Z PZ; [inversion Z; subst; discriminate|eauto].
  - intros b z e0. destruct (ATS b) as [[-> P]|[N P]]; rewrite P; intros Z PZ.
    + inversion Z; subst. inversion PZ; subst. destruct (ELS e0) as [[_ P1]|[N P1]]; [|congruence]. rewrite P1. exists y'. split; auto.
      cbn. rewrite map_app. apply in_app_iff; simpl; auto.
    + destruct (F b z e0 Z PZ) as (y0 & Y0 & IN). destruct (ELS e0) as [[-> P1]|[N1 P1]]; rewrite P1; [|eauto].
      exists y'. split; auto. assert (y0 = y) by congruence; subst y0. cbn. rewrite map_app. apply in_app_iff; auto.
  - intros e0 y0 n. destruct (ELS e0) as [[-> P1]|[N1 P1]]; rewrite P1; intros Y0 IN.
    + inversion Y0; subst y0. cbn in IN. apply in_app_iff in IN as [IN|[<-|[]]].
      * destruct (ATS (l_attr n)) as [[EA _]|[NA P2]]; [exfalso; eapply NOT; eauto|]. rewrite P2. eauto.
      * cbn [l_attr l_name]. destruct (ATS a) as [[_ P2]|[NA _]]; [|congruence]. rewrite P2. exists (set_aparent (Some e) x). auto.
    + destruct (ATS (l_attr n)) as [[EA _]|[NA P2]]; [exfalso; eapply NOT; eauto|]. rewrite P2. eauto.
  - intros e0 y0. destruct (ELS e0) as [[-> P1]|[N1 P1]]; rewrite P1; intros Y0; [inversion Y0; subst y0|eauto]. cbn. rewrite map_app.
    apply NoDup_app; [eauto|constructor; [intros []|constructor]|]. intros z I1 [<-|[]]. apply in_map_iff in I1 as (n & EA & IN). eapply NOT; eauto.
  - intros e0 y0. destruct (ELS e0) as [[-> P1]|[N1 P1]]; rewrite P1; intros Y0; [inversion Y0; subst y0|eauto]. cbn. rewrite app_length. simpl. lia.
Qed.

Lemma without_in : forall a l n, In n (without_attr a l) <-> In n l /\ l_attr n <> a.
Proof. intros. unfold without_attr. rewrite filter_In. rewrite Bool.negb_true_iff, Nat.eqb_neq. tauto. Qed.
Lemma without_nodup : forall a l, NoDup (map l_attr l) -> NoDup (map l_attr (without_attr a l)).
Proof.
  intros a l N. induction l as [|n l IH]; simpl in *; auto. inversion N; subst. destruct (Nat.eqb (l_attr n) a); simpl; auto. constructor; auto.
  intros IN. apply H1. apply in_map_iff in IN as (m & E & I'). apply without_in in I' as [I' _]. rewrite <- E. apply in_map; auto.
Qed.
Lemma without_shorter : forall n l, In n l -> S (length (without_attr (l_attr n) l)) <= length l.
Proof.
  intros n l. induction l as [|m l IH]; simpl; [tauto|]. intros [->|I].
  - rewrite Nat.eqb_refl. simpl. clear IH. assert (length (without_attr (l_attr n) l) <= length l); [|lia].
    induction l; simpl; auto. destruct (negb (Nat.eqb (l_attr a) (l_attr n))); simpl; lia.
  - specialize (IH I). destruct (negb (Nat.eqb (l_attr m) (l_attr n))); simpl; lia.
Qed.

Lemma good_drop : forall K Q e y n x x', good K Q -> q_el Q e = Some y -> In n (q_ents y) -> q_at Q (l_attr n) = Some x ->
  a_local x' = a_local x -> attr_ok x' -> (a_ref x' <= N.of_nat K)%N -> good K (drop Q e y n x').
Proof.
  intros K Q e y n x x' [A B C D E F G H I] Y IN X LX OK R. set (a := l_attr n) in *.
  destruct (G e y n Y IN) as (x0 & X0 & PX & NX). fold a in X0. assert (x0 = x) by congruence; subst x0.
  set (y' := mkQel (q_doc y) (q_ro y) (q_quirks y) (without_attr a (q_ents y)) (if is_class (l_ns n) (l_name n) then [] else q_cls y)).
  assert (ELS : forall e', (e' = e /\ q_el (drop Q e y n x') e' = Some y') \/ (e' <> e /\ q_el (drop Q e y n x') e' = q_el Q e')).
  { intros e'. unfold drop. cbn [put_at put_el q_el]. apply put_cases. }
  assert (ATS : forall b, (b = a /\ q_at (drop Q e y n x') b = unless_free (set_aparent None x')) \/ (b <> a /\ q_at (drop Q e y n x') b = q_at Q b)).
  { intros b. unfold drop. cbn [put_at put_el q_at]. apply put_cases. }
  assert (UF : forall z, unless_free (set_aparent None x') = Some z -> z = set_aparent None x' /\ (0 < a_ref x')%N).
  { intros z. unfold unless_free. cbn [set_aparent a_parent a_ref]. destruct (a_ref x' =? 0)%N eqn:Z; intros W; inversion W. split; auto. lia. }
  constructor; cbn [drop put_at put_el q_nel q_nat]; auto.
  - intros e' z. destruct (ELS e') as [[-> P]|[N P]]; rewrite P; eauto.
  - intros b z. destruct (ATS b) as [[-> P]|[N P]]; rewrite P; intros Z; eauto.
  - intros b z. destruct (ATS b) as [[-> P]|[N P]]; rewrite P; intros Z; [apply UF in Z as [-> Z]|eauto]. apply (attr_ok_same x'); auto.
  - intros b z. destruct (ATS b) as [[-> P]|[N P]]; rewrite P; intros Z; [apply UF in Z as [-> Z]|eauto]. auto.
  - intros b z. destruct (ATS b) as [[-> P]|[N P]]; rewrite P; intros Z PZ; [apply UF in Z as [-> Z]; auto|eauto].
  - intros b z e0. destruct (ATS b) as [[-> P]|[N P]]; rewrite P; intros Z PZ; [apply UF in Z as [-> Z]; discriminate|].
    destruct (F b z e0 Z PZ) as (y0 & Y0 & IN0). destruct (ELS e0) as [[-> P1]|[N1 P1]]; rewrite P1; [|eauto].
    exists y'. split; auto. assert (y0 = y) by congruence; subst y0. cbn. apply in_map_iff in IN0 as (m & E1 & I1). apply in_map_iff. exists m. split; auto.
    apply without_in. split; auto. congruence.
  - intros e0 y0 m. destruct (ELS e0) as [[-> P1]|[N1 P1]]; rewrite P1; intros Y0 IN0.
    + inversion Y0; subst y0. cbn in IN0. apply without_in in IN0 as [IN0 NA]. destruct (ATS (l_attr m)) as [[EA _]|[_ P2]]; [congruence|]. rewrite P2. eauto.
    + destruct (ATS (l_attr m)) as [[EA _]|[_ P2]]; [|rewrite P2; eauto]. destruct (G e0 y0 m Y0 IN0) as (z & Z & PZ & _). rewrite EA in Z. congruence.
  - intros e0 y0. destruct (ELS e0) as [[-> P1]|[N1 P1]]; rewrite P1; intros Y0; [inversion Y0; subst y0|eauto]. cbn. apply without_nodup. eauto.
  - intros e0 y0. destruct (ELS e0) as [[-> P1]|[N1 P1]]; rewrite P1; intros Y0; [inversion Y0; subst y0|eauto]. cbn.
    pose proof (without_shorter n (q_ents y) IN). specialize (I e y Y). fold a in H0. lia.
Qed.

Lemma writes_ok : forall x v x', writes x v = inl x' -> x' = set_kids [v] (set_type STRING x).
Proof. intros x v x'. unfold writes. destruct (a_ro x); [discriminate|]. destruct (a_type x); intros W; inversion W; auto. Qed.
Lemma set_type_eta : forall x t, atype_eqb (a_type x) t = true -> t = a_type x.
Proof. intros x t. destruct (a_type x), t; simpl; congruence. Qed.

Lemma good_step : forall k Q o, good k Q -> alegal Q o -> good (S k) (snd (qmeans o Q)).
Proof.
  intros k Q o GD H. pose proof (good_more k (S k) Q GD (Nat.le_succ_diag_r k)) as GS.
  assert (GIVE : forall a x, q_at Q a = Some x -> good (S k) (put_at Q a (Some (set_aref (a_ref x + 1) x)))).
  { intros a x X. apply (good_put (S k) Q a x); auto.
    - apply (attr_ok_same x); auto. apply (gd_ok _ _ GD _ _ X).
    - cbn. pose proof (gd_ref _ _ GD _ _ X). lia.
    - intros _. cbn. lia. }
  assert (SETV : forall a x v, q_at Q a = Some x -> good (S k) (snd (retype Q a (writes x v)))).
  { intros a x v X. destruct (writes x v) as [x'|] eqn:W; cbn [retype snd]; auto. apply writes_ok in W. subst x'. apply (good_put (S k) Q a x); auto.
    - right. exists v. auto.
    - cbn. pose proof (gd_ref _ _ GS _ _ X). lia.
    - intros P. cbn. apply (gd_held _ _ GD _ _ X P). }
  assert (TYPED : forall a x t f, q_at Q a = Some x -> t <> UNSET -> (forall z, a_parent (f z) = a_parent z /\ a_local (f z) = a_local z /\ a_kids (f z) = a_kids z /\ a_type (f z) = a_type z /\ a_ref (f z) = a_ref z) ->
      good (S k) (snd (retype Q a (types t f x)))).
  { intros a x t f X NU FS. assert (GO : forall x', a_parent x' = a_parent x -> a_local x' = a_local x -> a_kids x' = a_kids x -> (a_type x' = a_type x \/ a_type x = UNSET) -> a_ref x' = a_ref x ->
        good (S k) (put_at Q a (Some (f x')))).
    { intros x' E1 E2 E3 E4 E5. destruct (FS x') as (F1 & F2 & F3 & F4 & F5). apply (good_put (S k) Q a x); auto; try congruence.
      - destruct (gd_ok _ _ GD _ _ X) as [K|(v & K & T)]; [left; congruence|right; exists v]. split; [congruence|]. destruct E4; congruence.
      - rewrite F5, E5. apply (gd_ref _ _ GS _ _ X).
      - intros P. rewrite F5, E5. apply (gd_held _ _ GD _ _ X P). }
    unfold types. destruct (a_type x) eqn:T; [cbn; apply GO; auto|..]; (destruct (atype_eqb _ t); cbn [retype snd]; auto; apply GO; auto). }
  destruct o; cbn [qmeans alegal] in *.
  - (* ANew *) destruct GS as [A B C D E F G H' I]. cbn [snd].
    set (y' := mkQel doc ro quirks [] []).
    assert (NN : q_el Q (q_nel Q) = None). { destruct (q_el Q (q_nel Q)) as [y|] eqn:Y; auto. apply A in Y. lia. }
    constructor; cbn [q_el q_at q_nel q_nat]; auto.
    + intros e y. destruct (put_cases _ (q_el Q) (q_nel Q) (Some y') e) as [[-> P]|[N P]]; rewrite P; intros Y; [lia|]. apply A in Y. lia.
    + intros a x e X PX. destruct (F a x e X PX) as (y & Y & IN). exists y. rewrite put_other; auto. congruence.
    + intros e y n. destruct (put_cases _ (q_el Q) (q_nel Q) (Some y') e) as [[-> P]|[N P]]; rewrite P; intros Y IN; [inversion Y; subst; destruct IN|eauto].
    + intros e y. destruct (put_cases _ (q_el Q) (q_nel Q) (Some y') e) as [[-> P]|[N P]]; rewrite P; intros Y; [inversion Y; subst; constructor|eauto].
    + intros e y. destruct (put_cases _ (q_el Q) (q_nel Q) (Some y') e) as [[-> P]|[N P]]; rewrite P; intros Y; [inversion Y; subst; cbn; lia|eauto].
  - (* ASet *) destruct junk as [[b sh] i]. destruct (q_el Q e) as [y|] eqn:Y; auto. destruct (negb (attribute_name_ok name)); auto. destruct (q_ro y); auto.
    destruct (entry ns name (q_ents y)) as [n|] eqn:E.
    + destruct (q_at Q (l_attr n)) as [x|] eqn:X; auto.
    + cbv zeta. cbn [snd]. apply good_gain; auto.
      * intros z Z. apply (gd_ab _ _ GD) in Z. lia.
      * right. exists v. auto.
      * cbn. lia.
      * pose proof (gd_len _ _ GD e y Y). lia.
  - destruct (q_el Q e) as [y|] eqn:Y; auto. destruct (entry ns name (q_ents y)) as [n|]; auto. destruct (q_at Q (l_attr n)); auto.
  - destruct (q_el Q e) as [y|] eqn:Y; auto.
  - destruct (q_el Q e) as [y|] eqn:Y; auto. destruct (q_ro y); auto. destruct (entry ns name (q_ents y)) as [n|] eqn:E; auto. destruct (q_at Q (l_attr n)) as [x|] eqn:X; auto.
    cbn [snd]. apply (good_drop (S k) Q e y n x x); auto. { eapply entry_in; eauto. } { apply (gd_ok _ _ GD _ _ X). } { apply (gd_ref _ _ GS _ _ X). }
  - destruct (q_el Q e) as [y|] eqn:Y; auto.
  - destruct (q_el Q e) as [y|] eqn:Y; auto. destruct (i <? N.of_nat (length (q_ents y)))%N; auto. destruct (nth_error (q_ents y) (N.to_nat i)) as [n|]; auto.
    destruct (q_at Q (l_attr n)) as [x|] eqn:X; auto. cbn [snd]. auto.
  - destruct (q_el Q e) as [y|] eqn:Y; auto.
  - destruct (q_el Q e) as [y|] eqn:Y; auto. destruct (entry ns name (q_ents y)) as [n|]; auto. destruct (q_at Q (l_attr n)) as [x|] eqn:X; auto. cbn [snd]. auto.
  - (* ASetNode *) destruct H as (_ & _ & _ & NL). destruct (q_el Q e) as [y|] eqn:Y; auto. destruct (q_at Q a) as [x|] eqn:X; auto.
    destruct (negb (Nat.eqb (q_doc y) (a_doc x))); auto. destruct (q_ro y) eqn:RO; auto.
    destruct (negb (match a_parent x with None => true | Some p => Nat.eqb p e end)) eqn:PP; auto. apply Bool.negb_false_iff in PP.
    assert (WHERE : a_parent x = None \/ (a_parent x = Some e /\ exists m, In m (q_ents y) /\ l_attr m = a)).
    { destruct (a_parent x) as [p|] eqn:PX; auto. apply Nat.eqb_eq in PP. subst p. right. split; auto. destruct (gd_par _ _ GD a x e X PX) as (y0 & Y0 & IN).
      assert (y0 = y) by congruence; subst y0. apply in_map_iff in IN as (m & E1 & I1). exists m; auto. }
    destruct (entry ns (a_local x) (q_ents y)) as [n|] eqn:E.
    + destruct (q_at Q (l_attr n)) as [x0|] eqn:X0; auto. cbv zeta.
      set (Q1 := drop Q e y n (set_aref (a_ref x0 + 1) x0)).
      assert (G1 : good (S k) Q1).
      { apply (good_drop (S k) Q e y n x0); auto. - eapply entry_in; eauto. - apply (attr_ok_same x0); auto. apply (gd_ok _ _ GD _ _ X0).
        - cbn. pose proof (gd_ref _ _ GD _ _ X0). lia. }
      set (y1 := mkQel (q_doc y) (q_ro y) (q_quirks y) (without_attr (l_attr n) (q_ents y)) (if is_class (l_ns n) (l_name n) then [] else q_cls y)).
      assert (Y1 : q_el Q1 e = Some y1). { unfold Q1, drop. cbn [put_at put_el q_el]. rewrite put_same. reflexivity. } rewrite Y1.
      destruct (q_at Q1 a) as [x1|] eqn:X1; auto. cbn [snd].
      assert (FREE : forall z, q_at Q1 a = Some z -> a_parent z = None /\ a_local z = a_local x).
      { unfold Q1, drop. cbn [put_at put_el q_at]. intros z. destruct (put_cases _ (q_at Q) (l_attr n) (unless_free (set_aparent None (set_aref (a_ref x0 + 1) x0))) a) as [[-> P]|[NE P]]; rewrite P.
        - rewrite held_drop. intros Z; inversion Z; subst. cbn. split; auto. congruence.
        - rewrite X. intros Z; inversion Z; subst. split; auto. destruct WHERE as [W|[W (m & I1 & E1)]]; auto. exfalso. apply NE. rewrite <- E1.
          pose proof (NL y z m eq_refl eq_refl I1 E1) as EN. rewrite E in EN. inversion EN; auto. }
      apply (good_gain (S k) Q1 e y1 a ns (a_local x) x1 (q_nat Q1)); auto.
      * intros z Z. apply FREE; auto.
      * apply (gd_ab _ _ G1 _ _ X1).
      * apply FREE; auto.
      * apply (gd_ok _ _ G1 _ _ X1).
      * apply (gd_ref _ _ G1 _ _ X1).
      * cbn. pose proof (without_shorter n (q_ents y) (entry_in _ _ _ _ E)). pose proof (gd_len _ _ GD e y Y). lia.
    + cbn [snd]. apply (good_gain (S k) Q e y a ns (a_local x) x (q_nat Q)); auto.
      * intros z Z. assert (z = x) by congruence; subst z. destruct WHERE as [W|[W (m & I1 & E1)]]; auto.
        pose proof (NL y x m eq_refl eq_refl I1 E1) as EN. congruence.
      * apply (gd_ab _ _ GD _ _ X).
      * apply (gd_ok _ _ GD _ _ X).
      * apply (gd_ref _ _ GS _ _ X).
      * pose proof (gd_len _ _ GD e y Y). lia.
  - (* ARemoveNode *) destruct (q_el Q e) as [y|] eqn:Y; auto. destruct (q_at Q a) as [x|] eqn:X; auto. destruct (q_ro y) eqn:RO; auto. cbv zeta.
    match goal with |- context [entry ns ?q (q_ents y)] => destruct (entry ns q (q_ents y)) as [n|] eqn:E; auto end.
    destruct (Nat.eqb (l_attr n) a) eqn:EA; auto. cbn [snd]. apply Nat.eqb_eq in EA.
    apply (good_drop (S k) Q e y n x); auto. { eapply entry_in; eauto. } { congruence. } { apply (attr_ok_same x); auto. apply (gd_ok _ _ GD _ _ X). }
    { cbn. pose proof (gd_ref _ _ GD _ _ X). lia. }
  - (* ACreate *) destruct junk as [[b sh] i]. cbn [snd]. destruct GS as [A B C D E F G H' I].
    set (x' := mkAttr local ns prefix doc None [] UNSET b sh i false 1).
    assert (NN : q_at Q (q_nat Q) = None). { destruct (q_at Q (q_nat Q)) as [x|] eqn:X; auto. apply B in X. lia. }
    constructor; cbn [q_el q_at q_nel q_nat]; auto.
    + intros a x. destruct (put_cases _ (q_at Q) (q_nat Q) (Some x') a) as [[-> P]|[N P]]; rewrite P; intros X; [lia|]. apply B in X. lia.
    + intros a x. destruct (put_cases _ (q_at Q) (q_nat Q) (Some x') a) as [[-> P]|[N P]]; rewrite P; intros X; [inversion X; left; auto|eauto].
    + intros a x. destruct (put_cases _ (q_at Q) (q_nat Q) (Some x') a) as [[-> P]|[N P]]; rewrite P; intros X; [inversion X; cbn; lia|eauto].
    + intros a x. destruct (put_cases _ (q_at Q) (q_nat Q) (Some x') a) as [[-> P]|[N P]]; rewrite P; intros X PX; [inversion X; cbn; lia|eauto].
    + intros a x e. destruct (put_cases _ (q_at Q) (q_nat Q) (Some x') a) as [[-> P]|[N P]]; rewrite P; intros X PX; [inversion X; subst; discriminate|eauto].
    + intros e y n Y IN. destruct (G e y n Y IN) as (x & X & PX). exists x. rewrite put_other; auto. congruence.
  - destruct (q_at Q a); auto.
  - destruct (q_at Q a) as [x|] eqn:X; auto.
  - destruct (q_at Q a); auto.
  - destruct (q_at Q a) as [x|] eqn:X; auto. apply TYPED; auto; try discriminate; intros []; cbn; auto.
  - destruct (q_at Q a); auto.
  - destruct (q_at Q a) as [x|] eqn:X; auto. apply TYPED; auto; try discriminate; intros []; cbn; auto.
  - destruct (q_at Q a); auto.
  - destruct (q_at Q a) as [x|] eqn:X; auto. apply TYPED; auto; try discriminate; intros []; cbn; auto.
  - destruct (q_at Q a) as [x|] eqn:X; auto. cbn [snd]. auto.
  - (* AUnref *) destruct (q_at Q a) as [x|] eqn:X; auto. cbn [snd]. unfold unless_free. cbn [set_aref a_parent a_ref].
    assert (KEEP : (a_parent x <> None \/ (a_ref x - 1)%N <> 0%N) -> good (S k) (put_at Q a (Some (set_aref (a_ref x - 1) x)))).
    { intros KP. apply (good_put (S k) Q a x); auto.
      - apply (attr_ok_same x); auto. apply (gd_ok _ _ GD _ _ X).
      - cbn. pose proof (gd_ref _ _ GS _ _ X). lia.
      - intros PX. cbn. destruct KP; [congruence|lia]. }
    destruct (a_parent x) as [p|] eqn:PX; [apply KEEP; left; congruence|]. destruct (a_ref x - 1 =? 0)%N eqn:Z; [|apply KEEP; right; lia].
    clear KEEP. destruct GS as [A B C D E F G H' I].
    assert (SUB : forall b z, put (q_at Q) a None b = Some z -> q_at Q b = Some z /\ b <> a).
    { intros b z. destruct (put_cases _ (q_at Q) a None b) as [[-> P]|[N P]]; rewrite P; [discriminate|auto]. }
    constructor; cbn [put_at q_el q_at q_nel q_nat]; auto; try (intros b z W; apply SUB in W as [W _]; eauto).
    { intros b z e W PZ. apply SUB in W as [W _]. eauto. }
    intros e y n Y IN. destruct (G e y n Y IN) as (z & W & PZ & LZ). exists z. rewrite put_other; auto. intros EA. rewrite EA in W. congruence.
  - destruct (q_at Q a); auto.
Qed.

Lemma good_start : good 0 no_attrs.
Proof. constructor; cbn; try discriminate. Qed.
Lemma sim_start : sim no_ast no_attrs (fun _ => []).
Proof. constructor; cbn; auto; try discriminate; try tauto. Qed.

(** ** Histories *)
Theorem areach_sim : forall k s Q, areach k s Q -> (N.of_nat k < 4294967290)%N -> good k Q /\ exists L, sim s Q L.
Proof.
  intros k s Q R. induction R as [|k s Q o r s' R IH AL EX|k s Q o e s' R IH AL EX]; intros B.
  - split; [apply good_start|]. exists (fun _ => []). apply sim_start.
  - destruct IH as (GD & L & SM); [lia|]. split; [apply good_step; auto|].
    destruct (run_ok k s Q L SM GD) with (o := o) as (s1 & L1 & S1 & [E|(ex & _ & E)]); auto; [lia| |congruence]. rewrite E in EX. inversion EX; subst. eauto.
  - destruct IH as (GD & L & SM); [lia|]. split; [apply good_step; auto|].
    destruct (run_ok k s Q L SM GD) with (o := o) as (s1 & L1 & S1 & [E|(ex & _ & E)]); auto; [lia|congruence|]. rewrite E in EX. inversion EX; subst. eauto.
Qed.

Theorem attributes_refine : forall k s Q o, areach k s Q -> (N.of_nat k < 4294967290)%N -> alegal Q o -> answer (aexec o s) = Some (fst (qmeans o Q)).
Proof.
  intros k s Q o R B AL. destruct (areach_sim k s Q R B) as (GD & L & SM).
  destruct (run_ok k s Q L SM GD B o AL) as (s1 & L1 & S1 & [E|(ex & ER & E)]); rewrite E; cbn [answer]; congruence.
Qed.
