(** Boolean properties in every reachable state. *)
From Coq Require Import List Arith NArith ZArith Bool Lia ZifyBool ZifyNat ZifyN.
From Verif Require Import Base StringModel StringSpec StringProofs NameModel AttrModel AttrSpec AttrRing AttrProofs AttrRun AttrGood NumModel NumSpec NumProofs NumReach.
Import ListNotations.
Local Open Scope N_scope.

Definition has (Q : attrs) (e : nat) (n : bytes) : bool := match q_el Q e with Some y => match entry None n (q_ents y) with Some _ => true | None => false end | None => false end.

Lemma bool_get : forall k s Q e n, areach k s Q -> N.of_nat k < 4294967280 -> an_element Q e ->
  exists s', get_bool_property e n s = Ok (has Q e n) s' /\ answers_as Q s s'.
Proof.
  intros k s Q e n R B EL. unfold has, an_element in *. destruct (q_el Q e) as [y|] eqn:Y; [|congruence]. destruct (entry None n (q_ents y)) as [m|] eqn:E.
  - destruct (entry_attr k s Q e n y m R B Y E) as (x & X). destruct (lent_ok k s Q e n y R B Y m x E X) as (s1 & G & R1 & AL).
    destruct (release k s Q e n y R B Y m x E X (S k) s1 R1 ltac:(lia)) as (s2 & U & Q2 & R2 & LK). unfold get_bool_property. step G. cbv iota. step U. exists s2. split; [reflexivity|].
    eapply (like_answers k s Q (S (S k))); eauto; lia.
  - destruct (absent_ok k s Q e n y R B Y E) as (s1 & G & R1). unfold get_bool_property. step G. cbv iota. exists s1. split; [reflexivity|].
    eapply (like_answers k s Q (S k)); eauto; try lia. apply like_refl.
Qed.
Lemma bool_read : forall k s Q e n, areach k s Q -> N.of_nat k < 4294967280 -> an_element Q e ->
  exists b s', answer (aexec (AHas e None n) s) = Some (RBool b) /\ get_bool_property e n s = Ok b s' /\ answers_as Q s s'.
Proof.
  intros k s Q e n R B EL. destruct (bool_get k s Q e n R B EL) as (s' & G & A). exists (has Q e n), s'. split; auto.
  rewrite (attributes_refine k s Q (AHas e None n) R ltac:(lia) EL). unfold an_element, has in *. cbn [qmeans]. destruct (q_el Q e) as [y|]; [auto|congruence].
Qed.

Lemma has_like : forall Q Q' e n, like Q Q' -> has Q' e n = has Q e n.
Proof. intros Q Q' e n (_ & _ & E & _). unfold has. rewrite E. auto. Qed.

Lemma create_ok : forall j d n s, exists s', attr_create j d n None None s = Ok (as_nat s) s' /\ aexec (ACreate j d n None None) s = Ok (RAttr (Some (as_nat s))) s'.
Proof. intros [[b sh] i] d n s. eexists. split; reflexivity. Qed.

Lemma put_in : forall Q K a x, areach K a Q -> N.of_nat K < 4294967290 -> forall b, q_at Q b = Some x -> as_at a b = Some x.
Proof. intros Q K s x R B b X. destruct (areach_sim K s Q R B) as (_ & L & SM). rewrite (sm_at _ _ _ SM). auto. Qed.

Section Set_.
  Variables (k : nat) (s : ast) (Q : attrs) (e : nat) (n : bytes) (y : qel).
  Hypotheses (R : areach k s Q) (B : N.of_nat k < 4294967270) (Y : q_el Q e = Some y) (W : q_ro y = false).

  Definition leaves (j : bool * N * N) (b : bool) : Prop :=
    exists s1 K Q1, set_bool_property j e n b s = Ok tt s1 /\ areach K s1 Q1 /\ (K <= k + 5)%nat /\ an_element Q1 e /\ has Q1 e n = b.

  Lemma unref_step : forall K s1 Q1 a x, areach K s1 Q1 -> N.of_nat K < 4294967280 -> q_at Q1 a = Some x -> 0 < a_ref x ->
    exists s2, attr_unref a s1 = Ok tt s2 /\ areach (S K) s2 (put_at Q1 a (unless_free (set_aref (a_ref x - 1) x))).
  Proof.
    intros K s1 Q1 a x R1 B1 X P. assert (OW : owned Q1 a) by (exists x; auto). pose proof (attributes_refine K s1 Q1 (AUnref a) R1 ltac:(lia) OW) as A. cbn [qmeans] in A. rewrite X in A. cbn [fst] in A.
    destruct (unref_ans _ _ A) as (s2 & U & Z). exists s2. split; auto. pose proof (ar_ok _ _ _ (AUnref a) _ _ R1 OW Z) as R2. cbn [qmeans] in R2. rewrite X in R2. exact R2.
  Qed.

  Lemma bool_same : forall j b, has Q e n = b -> leaves j b.
  Proof.
    intros j b H. unfold has in H. rewrite Y in H. destruct (entry None n (q_ents y)) as [m|] eqn:E; subst b.
    - destruct (entry_attr k s Q e n y m R ltac:(lia) Y E) as (x & X). destruct (lent_ok k s Q e n y R ltac:(lia) Y m x E X) as (s1 & G & R1 & AL).
      destruct (release k s Q e n y R ltac:(lia) Y m x E X (S k) s1 R1 ltac:(lia)) as (s2 & U & Q2 & R2 & LK). exists s2, (S (S k)), Q2. unfold set_bool_property. step G. cbv iota. split; [exact U|]. split; auto. split; [lia|].
      split; [destruct LK as (_ & _ & L & _); unfold an_element; rewrite L, Y; discriminate|]. rewrite (has_like Q Q2 e n LK). unfold has. rewrite Y, E. auto.
    - destruct (absent_ok k s Q e n y R ltac:(lia) Y E) as (s1 & G & R1). exists s1, (S k), Q. unfold set_bool_property. step G. cbv iota. split; [reflexivity|]. split; auto. split; [lia|].
      split; [unfold an_element; congruence|]. unfold has. rewrite Y, E. auto.
  Qed.

  Lemma bool_on : forall j, has Q e n = false -> leaves j true.
  Proof.
    intros j H. unfold has in H. rewrite Y in H. destruct (entry None n (q_ents y)) as [m|] eqn:E; [discriminate|]. clear H.
    destruct (absent_ok k s Q e n y R ltac:(lia) Y E) as (s1 & G & R1). destruct (areach_sim (S k) s1 Q R1 ltac:(lia)) as (GD & L & SM).
    destruct (create_ok j (q_doc y) n s1) as (s2 & C & CX). rewrite (sm_nat _ _ _ SM) in C, CX.
    pose proof (ar_ok _ _ _ (ACreate j (q_doc y) n None None) _ _ R1 I CX) as R2.
    destruct j as [[b sh] i]. cbn [qmeans snd] in R2.
    set (a := q_nat Q) in *. set (x := mkAttr n None None (q_doc y) None [] UNSET b sh i false 1) in *. set (Q2 := mkAttrs (q_el Q) (put (q_at Q) a (Some x)) (q_nel Q) (S a)) in *.
    assert (X2 : q_at Q2 a = Some x) by (cbn [Q2 q_at]; apply put_same). assert (Y2 : q_el Q2 e = Some y) by exact Y.
    assert (AL : alegal Q2 (ASetNode e None a)).
    { cbn [alegal]. split; [unfold an_element; congruence|]. split; [exists x; split; auto; reflexivity|]. split.
      - intros y0 x0 m0 Y0 X0 E0. rewrite Y2 in Y0. rewrite X2 in X0. inversion Y0; inversion X0; subst y0 x0. cbn [x a_local] in E0. congruence.
      - intros y0 x0 m0 Y0 X0 IM LA. rewrite Y2 in Y0. inversion Y0; subst y0. destruct (gd_ent _ _ GD e y m0 Y IM) as (z & Z & _). rewrite LA in Z. apply (gd_ab _ _ GD) in Z. unfold a in Z. lia. }
    pose proof (attributes_refine (S (S k)) s2 Q2 _ R2 ltac:(lia) AL) as A. cbn [qmeans] in A. rewrite Y2, X2 in A. cbn [x a_doc a_parent a_local] in A. rewrite Nat.eqb_refl, W, E in A. cbn [negb fst] in A.
    destruct (put_ans _ _ _ _ A) as (s3 & P & PX). pose proof (ar_ok _ _ _ (ASetNode e None a) _ _ R2 AL PX) as R3.
    cbn [qmeans] in R3. rewrite Y2, X2 in R3. cbn [x a_doc a_parent a_local] in R3. rewrite Nat.eqb_refl, W, E in R3. cbn [negb snd] in R3. fold x in R3.
    destruct (unref_step (S (S (S k))) s3 _ a (set_aparent (Some e) x) R3 ltac:(lia)) as (s4 & U & R4); [cbn [gain put_at put_el q_at]; apply put_same|reflexivity|].
    exists s4, (S (S (S (S k)))). eexists. split; [|split; [exact R4|split; [lia|]]].
    - unfold set_bool_property. step G. cbv iota. step (eload_ok s1 Q L SM e y Y). cbn [elem e_doc]. step C. unfold try at 1. unfold bind at 1. rewrite P. cbn [unref_opt]. rewrite bind_ret. exact U.
    - unfold gain, put_at, put_el, an_element, has. cbn [q_el]. rewrite put_same. cbn [q_ents]. split; [discriminate|].
      rewrite (entry_app_new n _ (mkLnode a n None) E) by (cbn; apply bytes_eqb_iff; auto). auto.
  Qed.

  Lemma bool_off : forall j, has Q e n = true -> single Q e n -> unprefixed Q e n -> leaves j false.
  Proof.
    intros j H SG UP. unfold has in H. rewrite Y in H. destruct (entry None n (q_ents y)) as [m|] eqn:E; [|discriminate]. clear H.
    destruct (entry_attr k s Q e n y m R ltac:(lia) Y E) as (x & X). destruct (lent_ok k s Q e n y R ltac:(lia) Y m x E X) as (s1 & G & R1 & _).
    destruct (entry_parent k s Q e n y R ltac:(lia) Y m x E X) as [PA LO]. pose proof (entry_in _ _ _ _ E) as IM.
    assert (NM : l_name m = n) by (apply find_some in E as [_ E]; eapply wanted_name; eauto).
    pose proof (UP y m x Y IM NM X) as PF. unfold lent in R1. set (a := l_attr m) in *. set (x1 := set_aref (a_ref x + 1) x) in *. set (Q1 := put_at Q a (Some x1)) in *.
    assert (X1 : q_at Q1 a = Some x1) by (cbn [Q1 put_at q_at]; apply put_same). assert (Y1 : q_el Q1 e = Some y) by exact Y.
    assert (OW : owned Q1 a) by (exists x1; split; auto; cbn [x1 set_aref a_ref]; lia).
    assert (AL : alegal Q1 (ARemoveNode e None a)) by (split; [unfold an_element; congruence|exact OW]).
    assert (QN : qualified x1 = n) by (unfold qualified, x1; cbn [set_aref a_prefix a_local]; rewrite PF; auto).
    pose proof (attributes_refine (S k) s1 Q1 _ R1 ltac:(lia) AL) as A. cbn [qmeans] in A. rewrite Y1, X1, W in A. cbv zeta in A. rewrite QN, E in A. fold a in A. rewrite Nat.eqb_refl in A. cbn [fst] in A.
    destruct (remove_ans _ _ _ _ A) as (s2 & P & PX). pose proof (ar_ok _ _ _ (ARemoveNode e None a) _ _ R1 AL PX) as R2.
    cbn [qmeans] in R2. rewrite Y1, X1, W in R2. cbv zeta in R2. rewrite QN, E in R2. fold a in R2. rewrite Nat.eqb_refl in R2. cbn [snd] in R2.
    set (x2 := set_aparent None (set_aref (a_ref x1 + 1) x1)) in *. set (Q2 := drop Q1 e y m (set_aref (a_ref x1 + 1) x1)) in *.
    assert (X2 : q_at Q2 a = Some x2).
    { unfold Q2, drop. cbn [put_at put_el q_at]. fold a. rewrite put_same. unfold unless_free. fold x2. cbn [x2 set_aparent a_parent set_aref a_ref]. destruct (_ =? 0) eqn:Z; [lia|auto]. }
    destruct (unref_step (S (S k)) s2 Q2 a x2 R2 ltac:(lia) X2) as (s3 & U & R3); [cbn [x2 set_aparent set_aref a_ref]; lia|].
    set (x3 := set_aref (a_ref x2 - 1) x2) in *.
    assert (R3x : unless_free x3 = Some x3).
    { unfold unless_free. cbn [x3 x2 set_aparent a_parent set_aref a_ref]. destruct (_ =? 0) eqn:Z; [|auto]. exfalso. cbn [x1 set_aref a_ref] in Z. lia. }
    rewrite R3x in R3. set (Q3 := put_at Q2 a (Some x3)) in *.
    destruct (unref_step (S (S (S k))) s3 Q3 a x3 R3 ltac:(lia)) as (s4 & U4 & R4); [cbn [Q3 put_at q_at]; apply put_same|cbn [x3 x2 x1 set_aparent set_aref a_ref]; lia|].
    exists s4, (S (S (S (S k)))). eexists. split; [|split; [exact R4|split; [lia|]]].
    - unfold set_bool_property. step G. cbv iota. fold a. unfold try at 1. unfold bind at 1. rewrite P. step U. exact U4.
    - unfold Q3, Q2, drop, put_at, put_el, an_element, has. cbn [q_el]. rewrite put_same. cbn [q_ents]. split; [discriminate|]. fold a.
      destruct (entry None n (without_attr a (q_ents y))) as [z|] eqn:EZ; auto. exfalso. pose proof (entry_in _ _ _ _ EZ) as IZ. apply without_in in IZ as [IZ NZ].
      apply NZ. unfold a. f_equal. eapply SG; eauto. apply find_some in EZ as [_ EZ]. eapply wanted_name; eauto.
  Qed.
End Set_.

Lemma bool_back : forall k s Q e n y j b, areach k s Q -> N.of_nat k < 4294967270 -> q_el Q e = Some y -> q_ro y = false -> (b = false -> single Q e n /\ unprefixed Q e n) ->
  exists s1 s2, set_bool_property j e n b s = Ok tt s1 /\ get_bool_property e n s1 = Ok b s2.
Proof.
  intros k s Q e n y j b R B Y W C.
  assert (L : leaves k s e n j b).
  { destruct (bool_dec (has Q e n) b) as [E|N]; [eapply bool_same; eauto|]. destruct b.
    - eapply bool_on; eauto. destruct (has Q e n); congruence.
    - destruct C; auto. eapply bool_off; eauto. destruct (has Q e n); congruence. }
  destruct L as (s1 & K & Q1 & S1 & R1 & LE & EL & H). destruct (bool_get K s1 Q1 e n R1 ltac:(lia) EL) as (s2 & G & _). rewrite H in G. eauto.
Qed.
