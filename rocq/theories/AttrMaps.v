(** The attributes of an element are a dictionary. *)
From Coq Require Import List Arith NArith Bool Lia ZifyBool ZifyNat ZifyN.
From Verif Require Import Base StringModel StringSpec StringProofs NameModel RingModel RingSpec RingProofs AttrModel AttrSpec AttrRing AttrProofs AttrRun AttrGood AttrMapSpec.
Import ListNotations.
Local Open Scope dom_scope.

(** ** Keys and dictionaries *)
Lemma beq_refl : forall a, bytes_eqb a a = true.
Proof. intros a. destruct (bytes_eqb_spec a a); congruence. Qed.
Lemma key_eqb_iff : forall a b, key_eqb a b = true <-> a = b.
Proof.
  intros [[u|] x] [[w|] y]; unfold key_eqb; simpl; split; intros H; try discriminate;
    try (apply andb_true_iff in H as [H1 H2]);
    repeat match goal with H : bytes_eqb ?p ?q = true |- _ => destruct (bytes_eqb_spec p q); [|discriminate]; subst; clear H end; auto;
    inversion H; subst; rewrite ?beq_refl; auto.
Qed.
Lemma key_eqb_refl : forall a, key_eqb a a = true.
Proof. intros a. apply key_eqb_iff. auto. Qed.
Lemma key_eqb_no : forall a b, key_eqb a b = false <-> a <> b.
Proof. intros a b. pose proof (key_eqb_iff a b). destruct (key_eqb a b); split; intros; try congruence; [destruct H as [H _]; rewrite H in H0; congruence|]. intros E. apply H in E. discriminate. Qed.

Lemma lookup_store_same : forall d c v, lookup (store d c v) c = Some v.
Proof.
  intros d c v. unfold store. destruct (lookup d c) as [w|] eqn:E; unfold lookup in *.
  - induction d as [|p d IH]; simpl in *; [discriminate|]. destruct (key_eqb (fst p) c) eqn:K; simpl; [rewrite key_eqb_refl; auto|]. rewrite K. auto.
  - induction d as [|p d IH]; simpl in *; [rewrite key_eqb_refl; auto|]. destruct (key_eqb (fst p) c) eqn:K; simpl in *; [discriminate|]. auto.
Qed.
Lemma lookup_store_other : forall d c v b, b <> c -> lookup (store d c v) b = lookup d b.
Proof.
  intros d c v b N. apply not_eq_sym in N. pose proof N as N0. apply key_eqb_no in N. unfold store. destruct (lookup d c) as [w|]; unfold lookup in *.
  - induction d as [|p d IH]; simpl in *; auto. destruct (key_eqb (fst p) c) eqn:K; simpl.
    + apply key_eqb_iff in K. rewrite K, N. auto.
    + destruct (key_eqb (fst p) b); auto.
  - induction d as [|p d IH]; simpl in *; [rewrite N; auto|]. destruct (key_eqb (fst p) b); auto.
Qed.
Lemma lookup_delete_same : forall d c, lookup (delete d c) c = None.
Proof. intros d c. unfold lookup, delete. induction d as [|p d IH]; simpl; auto. destruct (key_eqb (fst p) c) eqn:K; simpl; auto. rewrite K. auto. Qed.
Lemma lookup_delete_other : forall d c b, b <> c -> lookup (delete d c) b = lookup d b.
Proof.
  intros d c b N. apply not_eq_sym in N. apply key_eqb_no in N. unfold lookup, delete. induction d as [|p d IH]; simpl; auto.
  destruct (key_eqb (fst p) c) eqn:K; simpl.
  - apply key_eqb_iff in K. rewrite K, N. auto.
  - destruct (key_eqb (fst p) b); auto.
Qed.
Lemma lookup_in : forall d c, lookup d c = None <-> ~ In c (map fst d).
Proof.
  intros d c. unfold lookup. induction d as [|p d IH]; simpl; [tauto|]. destruct (key_eqb (fst p) c) eqn:K; simpl.
  - apply key_eqb_iff in K. split; [discriminate|]. intros H; exfalso; auto.
  - apply key_eqb_no in K. rewrite IH. tauto.
Qed.
(** Storing keeps the order of the keys; a new key comes last. *)
Lemma store_keys : forall d c v, map fst (store d c v) = if existsb (fun b => key_eqb b c) (map fst d) then map fst d else map fst d ++ [c].
Proof.
  intros d c v. unfold store. destruct (lookup d c) as [w|] eqn:E.
  - assert (X : existsb (fun b => key_eqb b c) (map fst d) = true).
    { apply existsb_exists. exists c. split; [|apply key_eqb_refl]. destruct (in_dec (fun a b => match bool_dec (key_eqb a b) true with left e => left (proj1 (key_eqb_iff a b) e) | right n => right (fun e => n (proj2 (key_eqb_iff a b) e)) end) c (map fst d)) as [I|N]; auto.
      apply lookup_in in N. congruence. }
    rewrite X. rewrite map_map. apply map_ext_in. intros p I. destruct (key_eqb (fst p) c) eqn:K; auto. apply key_eqb_iff in K. auto.
  - assert (X : existsb (fun b => key_eqb b c) (map fst d) = false).
    { apply lookup_in in E. clear - E. induction (map fst d) as [|b l IH]; simpl in *; auto. rewrite IH by tauto. rewrite Bool.orb_false_r. apply key_eqb_no. intros ->. tauto. }
    rewrite X, map_app. auto.
Qed.

(** ** The dictionary of an element *)
Definition nk (n : lnode) : key := (l_ns n, l_name n).
Definition val (Q : attrs) (n : lnode) : bytes := match q_at Q (l_attr n) with Some x => value x | None => [] end.
Definition dict_of (Q : attrs) (l : list lnode) : dict := map (fun n => (nk n, val Q n)) l.

Record mirror (Q : attrs) (W : world) : Prop := mkMirror {
  mi_n : w_n W = q_nel Q;
  mi_el : forall e, w_el W e = option_map (fun y => (q_ro y, dict_of Q (q_ents y))) (q_el Q e);
  mi_st : forall e y n x, q_el Q e = Some y -> In n (q_ents y) -> q_at Q (l_attr n) = Some x -> a_type x = STRING /\ a_ro x = false /\ a_prefix x = None;
  mi_nd : forall e y, q_el Q e = Some y -> NoDup (map nk (q_ents y))
}.

Lemma find_same : forall A (f g : A -> bool) l, (forall x, In x l -> f x = g x) -> find f l = find g l.
Proof. intros A f g l H. induction l as [|x l IH]; simpl; auto. rewrite H by (left; auto). destruct (g x); auto. apply IH. intros; apply H; right; auto. Qed.

Definition not_shadowed (l : list lnode) (ns : option bytes) (k : bytes) : Prop := ns = None -> forall n, In n l -> l_name n = k -> l_ns n = None.

Lemma wanted_key : forall l ns k n, not_shadowed l ns k -> In n l -> wanted ns k n = key_eqb (nk n) (ns, k).
Proof.
  intros l ns k n C I. unfold wanted, key_eqb, nk. cbn [fst snd].
  assert (SYM : forall a b, bytes_eqb a b = bytes_eqb b a) by (intros a b; destruct (bytes_eqb_spec a b), (bytes_eqb_spec b a); congruence).
  rewrite (SYM k). destruct ns as [u|]; cbn [opt_eqb].
  - destruct (l_ns n); cbn [opt_eqb]; auto. rewrite (SYM u). auto.
  - destruct (bytes_eqb_spec (l_name n) k) as [E|NE]; [|rewrite !andb_false_r; auto]. rewrite (C eq_refl n I E). reflexivity.
Qed.

Lemma lookup_entry : forall Q l ns k, not_shadowed l ns k -> lookup (dict_of Q l) (ns, k) = option_map (val Q) (entry ns k l).
Proof.
  intros Q l ns k C. unfold entry. rewrite (find_same _ _ (fun n => key_eqb (nk n) (ns, k))) by (intros n I; eapply wanted_key; eauto). clear C.
  unfold lookup, dict_of. induction l as [|n l IH]; simpl; auto. destruct (key_eqb (nk n) (ns, k)); simpl; auto.
Qed.

Lemma entry_key : forall l ns k n, not_shadowed l ns k -> entry ns k l = Some n -> In n l /\ nk n = (ns, k).
Proof.
  intros l ns k n C E. apply find_some in E as [I W]. split; auto. rewrite (wanted_key l) in W by auto. apply key_eqb_iff; auto.
Qed.

Lemma clear_entries : forall Q W o e ns k y, mirror Q W -> unambiguous W o -> asks o = Some (e, (ns, k)) -> q_el Q e = Some y -> not_shadowed (q_ents y) ns k.
Proof.
  intros Q W o e ns k y MI U A Y -> n I E. destruct (l_ns n) as [u|] eqn:LN; auto. exfalso.
  assert (WE : w_el W e = Some (q_ro y, dict_of Q (q_ents y))) by (rewrite (mi_el _ _ MI), Y; auto).
  pose proof (U e k _ _ A WE u) as N. apply lookup_in in N. apply N. unfold dict_of. rewrite map_map. cbn [fst]. apply in_map_iff. exists n. split; auto. unfold nk. congruence.
Qed.

(** ** Steps *)
Lemma val_put : forall Q a v n, l_attr n <> a -> val (put_at Q a v) n = val Q n.
Proof. intros Q a v n N. unfold val. cbn. rewrite put_other; auto. Qed.

Section Step.
  Variables (k : nat) (Q : attrs) (W : world).
  Hypotheses (GD : good k Q) (MI : mirror Q W).

  Definition alike (x x' : attr) : Prop := a_kids x' = a_kids x /\ a_type x' = a_type x /\ a_ro x' = a_ro x /\ a_prefix x' = a_prefix x.
  Lemma mirror_put : forall a v, (forall x e, q_at Q a = Some x -> a_parent x = Some e -> exists x', v = Some x' /\ alike x x') -> mirror (put_at Q a v) W.
  Proof.
    intros a v H.
    assert (AT : forall e y n, q_el Q e = Some y -> In n (q_ents y) -> exists x x', q_at Q (l_attr n) = Some x /\ put (q_at Q) a v (l_attr n) = Some x' /\ alike x x').
    { intros e y n Y I. destruct (gd_ent _ _ GD e y n Y I) as (x & X & PX & _). exists x.
      destruct (put_cases _ (q_at Q) a v (l_attr n)) as [[EA P]|[N P]]; rewrite P; [|exists x; unfold alike; repeat split; auto].
      rewrite EA in X. destruct (H x e X PX) as (x' & V & AL). exists x'. rewrite EA. auto. }
    assert (VAL : forall e y n, q_el Q e = Some y -> In n (q_ents y) -> val (put_at Q a v) n = val Q n).
    { intros e y n Y I. destruct (AT e y n Y I) as (x & x' & X & X' & (K & _)). unfold val. cbn [put_at q_at]. rewrite X, X'. unfold value. congruence. }
    destruct MI as [A B C D]. constructor; cbn [put_at q_el q_nel]; auto.
    - intros e. rewrite B. destruct (q_el Q e) as [y|] eqn:Y; cbn [option_map]; auto. do 2 f_equal. apply map_ext_in. intros n I. rewrite (VAL e y n Y I). auto.
    - intros e y n x' Y I X'. destruct (AT e y n Y I) as (x & x1 & X & X1 & (_ & K1 & K2 & K3)). cbn [put_at q_at] in X'. assert (x1 = x') by congruence; subst x1.
      rewrite K1, K2, K3. eauto.
  Qed.

  Lemma alike_refl : forall x, alike x x.
  Proof. intros x. unfold alike. auto. Qed.

  Lemma attr_of : forall e y y' n m, q_el Q e = Some y -> In n (q_ents y) -> forall e', q_el Q e' = Some y' -> In m (q_ents y') -> l_attr m = l_attr n -> m = n /\ e' = e.
  Proof.
    intros e y y' n m Y I e' Y' I' EA. destruct (gd_ent _ _ GD e y n Y I) as (x & X & PX & _). destruct (gd_ent _ _ GD e' y' m Y' I') as (x' & X' & PX' & _).
    rewrite EA in X'. assert (x' = x) by congruence; subst x'. assert (e' = e) by congruence; subst e'. assert (y' = y) by congruence; subst y'. split; auto.
    pose proof (gd_nd _ _ GD e y Y) as N. clear - I I' EA N. induction (q_ents y) as [|z l IH]; simpl in *; [tauto|]. inversion N as [|? ? NI N']; subst.
    destruct I as [->|I], I' as [->|I']; auto; exfalso; apply NI; [rewrite <- EA|rewrite EA]; apply in_map; auto.
  Qed.

  Lemma key_of : forall e y n m, q_el Q e = Some y -> In n (q_ents y) -> In m (q_ents y) -> nk m = nk n -> m = n.
  Proof.
    intros e y n m Y I I' E. pose proof (mi_nd _ _ MI e y Y) as N. clear - I I' E N. induction (q_ents y) as [|z l IH]; simpl in *; [tauto|].
    inversion N as [|? ? NI N']; subst. destruct I as [->|I], I' as [->|I']; auto; exfalso; apply NI; [rewrite <- E|rewrite E]; apply in_map; auto.
  Qed.

  Lemma mirror_new : forall doc ro quirks, mirror (snd (qmeans (ANew doc ro quirks) Q)) (writes_dict (ANew doc ro quirks) W).
  Proof.
    intros doc ro quirks. cbn [qmeans snd writes_dict]. destruct MI as [A B C D]. set (y0 := mkQel doc ro quirks [] []).
    constructor; cbn [q_el q_nel w_el w_n q_at]; auto; rewrite ?A.
    - intros e. unfold put. destruct (Nat.eqb e (q_nel Q)); auto.
    - intros e y n x. destruct (put_cases _ (q_el Q) (q_nel Q) (Some y0) e) as [[-> P]|[N P]]; rewrite P; intros Y I; [inversion Y; subst; destruct I|eauto].
    - intros e y. destruct (put_cases _ (q_el Q) (q_nel Q) (Some y0) e) as [[-> P]|[N P]]; rewrite P; intros Y; [inversion Y; subst; constructor|eauto].
  Qed.

  Lemma value_one : forall x v, value (set_kids [v] x) = shown v.
  Proof. intros x v. unfold value, kids_value. cbn. rewrite app_nil_r. destruct v; auto. Qed.

  Lemma mirror_set : forall j e ns nm v, alegal Q (ASet j e ns nm v) -> unambiguous W (ASet j e ns nm v) ->
    mirror (snd (qmeans (ASet j e ns nm v) Q)) (writes_dict (ASet j e ns nm v) W).
  Proof.
    intros [[b sh] i] e ns nm v [AE NM] U. destruct (el_some Q e AE) as [y Y].
    pose proof (clear_entries Q W _ e ns nm y MI U eq_refl Y) as CL.
    assert (WE : w_el W e = Some (q_ro y, dict_of Q (q_ents y))) by (rewrite (mi_el _ _ MI), Y; auto).
    cbn [qmeans writes_dict]. rewrite Y, WE. destruct (attribute_name_ok nm); cbn [negb]; [|destruct (q_ro y); auto]. destruct (q_ro y) eqn:RO; auto.
    pose proof (lookup_entry Q (q_ents y) ns nm CL) as LE. unfold store. rewrite LE.
    destruct (entry ns nm (q_ents y)) as [n|] eqn:E; cbn [option_map].
    - destruct (entry_key _ _ _ _ CL E) as [IN KN]. destruct (gd_ent _ _ GD e y n Y IN) as (x & X & PX & NX). rewrite X.
      destruct (mi_st _ _ MI e y n x Y IN X) as (T1 & T2 & T3).
      assert (WR : writes x v = inl (set_kids [v] (set_type STRING x))) by (unfold writes; rewrite T1, T2; auto). rewrite WR. cbn [retype snd].
      set (x' := set_kids [v] (set_type STRING x)).
      assert (VN : val (put_at Q (l_attr n) (Some x')) n = shown v). { unfold val. cbn [put_at q_at]. rewrite put_same. apply value_one. }
      destruct MI as [A B C D]. constructor; cbn [put_at put_dict q_el q_nel q_at w_el w_n]; auto.
      + intros e'. match goal with |- put (w_el W) e ?D e' = _ => destruct (put_cases _ (w_el W) e D e') as [[-> P]|[N P]] end; rewrite P.
        * rewrite Y. cbn [option_map]. rewrite RO. do 2 f_equal. unfold dict_of. rewrite map_map. apply map_ext_in. intros m IM. cbn [fst].
          destruct (key_eqb (nk m) (ns, nm)) eqn:KM.
          -- apply key_eqb_iff in KM. assert (m = n) by (eapply key_of; eauto; congruence). subst m. rewrite VN, KN. auto.
          -- rewrite val_put; auto. intros EA. destruct (attr_of e y y n m Y IN e Y IM EA) as [-> _]. apply key_eqb_no in KM. congruence.
        * rewrite B. destruct (q_el Q e') as [y'|] eqn:Y'; auto. cbn [option_map]. do 2 f_equal. apply map_ext_in. intros m IM. rewrite val_put; auto.
          intros EA. destruct (attr_of e y y' n m Y IN e' Y' IM EA) as [_ ->]. congruence.
      + intros e' y' m z Y' IM. destruct (put_cases _ (q_at Q) (l_attr n) (Some x') (l_attr m)) as [[EA P]|[N P]]; rewrite P; [|eauto].
        intros Z; inversion Z; subst z. unfold x'. cbn. auto.
    - cbv zeta. cbn [snd]. set (a := q_nat Q). set (x0 := mkAttr nm ns None (q_doc y) None [v] STRING b sh i false 0).
      assert (NEW : forall e' y' m, q_el Q e' = Some y' -> In m (q_ents y') -> l_attr m <> a).
      { intros e' y' m Y' IM EA. destruct (gd_ent _ _ GD e' y' m Y' IM) as (z & Z & _). apply (gd_ab _ _ GD) in Z. unfold a in EA. lia. }
      assert (VALS : forall e' y' m, q_el Q e' = Some y' -> In m (q_ents y') -> match put (q_at Q) a (Some (set_aparent (Some e) x0)) (l_attr m) with Some x => value x | None => [] end = val Q m).
      { intros e' y' m Y' IM. rewrite put_other by eauto. reflexivity. }
      destruct MI as [A B C D]. constructor; cbn [gain put_at put_el put_dict q_el q_nel q_at w_el w_n]; auto.
      + intros e'. match goal with |- put (w_el W) e ?D e' = _ => destruct (put_cases _ (w_el W) e D e') as [[-> P]|[N P]] end; rewrite P.
        * rewrite put_same. cbn [option_map q_ro q_ents]. rewrite RO. do 2 f_equal. unfold dict_of. rewrite map_app. cbn [map]. f_equal.
          -- apply map_ext_in. intros m IM. f_equal. symmetry. apply (VALS e y); auto.
          -- unfold val. cbn [q_at l_attr]. rewrite put_same. unfold value, x0. cbn. rewrite app_nil_r. destruct v; auto.
        * rewrite B, put_other by auto. destruct (q_el Q e') as [y'|] eqn:Y'; auto. cbn [option_map]. do 2 f_equal. apply map_ext_in. intros m IM. f_equal. symmetry. apply (VALS e' y'); auto.
      + intros e' y' m z. set (y1 := mkQel (q_doc y) (q_ro y) (q_quirks y) (q_ents y ++ [mkLnode a nm ns]) (if is_class ns nm then class_split (c_string (value x0)) [] else q_cls y)).
        destruct (put_cases _ (q_el Q) e (Some y1) e') as [[-> P]|[N P]]; rewrite P; intros Y' IM Z.
        * inversion Y'; subst y'. cbn in IM. apply in_app_iff in IM as [IM|[<-|[]]].
          -- rewrite put_other in Z by eauto. eauto.
          -- cbn [l_attr] in Z. rewrite put_same in Z. inversion Z; subst z. unfold x0. cbn. auto.
        * rewrite put_other in Z by eauto. eauto.
      + intros e' y'. match goal with |- put (q_el Q) e (Some ?y1) e' = _ -> _ => destruct (put_cases _ (q_el Q) e (Some y1) e') as [[-> P]|[N P]] end; rewrite P; intros Y'; [|eauto].
        inversion Y'; subst y'. cbn [q_ents]. rewrite map_app. apply NoDup_app; [eauto|constructor; [intros []|constructor]|].
        intros z I1 [<-|[]]. cbn [map] in *. unfold nk in I1 at 2. cbn in I1. cbn [option_map] in LE. apply lookup_in in LE. apply LE. unfold dict_of. rewrite map_map. cbn [fst]. exact I1.
  Qed.

  Lemma mirror_remove : forall e ns nm, alegal Q (ARemove e ns nm) -> unambiguous W (ARemove e ns nm) ->
    mirror (snd (qmeans (ARemove e ns nm) Q)) (writes_dict (ARemove e ns nm) W).
  Proof.
    intros e ns nm AE U. destruct (el_some Q e AE) as [y Y].
    pose proof (clear_entries Q W _ e ns nm y MI U eq_refl Y) as CL.
    assert (WE : w_el W e = Some (q_ro y, dict_of Q (q_ents y))) by (rewrite (mi_el _ _ MI), Y; auto).
    cbn [qmeans writes_dict]. rewrite Y, WE. destruct (q_ro y) eqn:RO; auto.
    destruct (entry ns nm (q_ents y)) as [n|] eqn:E.
    - destruct (entry_key _ _ _ _ CL E) as [IN KN]. destruct (gd_ent _ _ GD e y n Y IN) as (x & X & PX & NX). rewrite X. cbn [snd].
      set (y1 := mkQel (q_doc y) (q_ro y) (q_quirks y) (without_attr (l_attr n) (q_ents y)) (if is_class (l_ns n) (l_name n) then [] else q_cls y)).
      assert (VALS : forall m, l_attr m <> l_attr n -> val (drop Q e y n x) m = val Q m).
      { intros m N. unfold val, drop. cbn [put_at put_el q_at]. rewrite put_other; auto. }
      destruct MI as [A B C D]. constructor; cbn [put_dict w_el w_n]; auto.
      + intros e'. unfold drop at 2. cbn [put_at put_el q_el]. fold y1. match goal with |- put (w_el W) e ?D e' = _ => destruct (put_cases _ (w_el W) e D e') as [[-> P]|[N P]] end; rewrite P.
        * rewrite put_same. cbn [option_map y1 q_ro q_ents]. rewrite RO. do 2 f_equal. unfold y1. cbn [q_ents]. unfold delete, dict_of, without_attr.
          assert (GEN : forall l, (forall m, In m l -> In m (q_ents y)) ->
             filter (fun p => negb (key_eqb (fst p) (ns, nm))) (map (fun m => (nk m, val Q m)) l) =
             map (fun m => (nk m, val (drop Q e y n x) m)) (filter (fun m => negb (Nat.eqb (l_attr m) (l_attr n))) l)).
          { induction l as [|m l IH]; intros SUB; simpl; auto. assert (EQ : key_eqb (nk m) (ns, nm) = Nat.eqb (l_attr m) (l_attr n)).
            { destruct (Nat.eqb (l_attr m) (l_attr n)) eqn:EA.
              - apply Nat.eqb_eq in EA. destruct (attr_of e y y n m Y IN e Y) as [-> _]; auto. { apply SUB; left; auto. } rewrite KN. apply key_eqb_refl.
              - apply key_eqb_no. intros K. apply Nat.eqb_neq in EA. apply EA. f_equal. eapply key_of; eauto; [apply SUB; left; auto|congruence]. }
            rewrite EQ. destruct (Nat.eqb (l_attr m) (l_attr n)) eqn:EA; simpl; [apply IH; intros; apply SUB; right; auto|].
            f_equal; [|apply IH; intros; apply SUB; right; auto]. rewrite VALS; auto. apply Nat.eqb_neq; auto. }
          apply GEN; auto.
        * rewrite B, put_other by auto. destruct (q_el Q e') as [y'|] eqn:Y'; auto. cbn [option_map]. do 2 f_equal. apply map_ext_in. intros m IM. f_equal. symmetry. apply VALS.
          intros EA. destruct (attr_of e y y' n m Y IN e' Y' IM EA) as [_ ->]. congruence.
      + intros e' y' m z. unfold drop. cbn [put_at put_el q_el q_at]. fold y1. destruct (put_cases _ (q_el Q) e (Some y1) e') as [[-> P]|[N P]]; rewrite P; intros Y' IM Z.
        * inversion Y'; subst y'. cbn in IM. apply without_in in IM as [IM NA]. rewrite put_other in Z by auto. eauto.
        * rewrite put_other in Z; eauto. intros EA. destruct (attr_of e y y' n m Y IN e' Y' IM EA) as [_ ->]. congruence.
      + intros e' y'. unfold drop. cbn [put_at put_el q_el]. fold y1. destruct (put_cases _ (q_el Q) e (Some y1) e') as [[-> P]|[N P]]; rewrite P; intros Y'; [|eauto].
        inversion Y'; subst y'. cbn [y1 q_ents]. specialize (D e y Y). clear - D. unfold without_attr. induction (q_ents y) as [|m l IH]; simpl; auto. simpl in D. inversion D as [|? ? NI D']; subst.
        destruct (negb (Nat.eqb (l_attr m) (l_attr n))); simpl; auto. constructor; auto. intros I. apply NI. apply in_map_iff in I as (z & EZ & IZ). apply filter_In in IZ as [IZ _]. rewrite <- EZ. apply in_map; auto.
    - assert (SAME : delete (dict_of Q (q_ents y)) (ns, nm) = dict_of Q (q_ents y)).
      { pose proof (lookup_entry Q (q_ents y) ns nm CL) as LE. rewrite E in LE. cbn in LE. apply lookup_in in LE. clear - LE. unfold delete. induction (dict_of Q (q_ents y)) as [|p d IH]; simpl in *; auto.
        destruct (key_eqb (fst p) (ns, nm)) eqn:K; [apply key_eqb_iff in K; exfalso; apply LE; left; auto|]. simpl. rewrite IH; auto. }
      rewrite SAME. cbn [snd]. destruct MI as [A B C D]. constructor; cbn [put_dict w_el w_n]; auto.
      intros e'. match goal with |- put (w_el W) e ?D e' = _ => destruct (put_cases _ (w_el W) e D e') as [[-> P]|[N P]] end; rewrite P; auto. rewrite <- WE. auto.
  Qed.

  Theorem mirror_step : forall o, by_name o -> unambiguous W o -> alegal Q o -> mirror (snd (qmeans o Q)) (writes_dict o W).
  Proof.
    intros o BN U AL.
    assert (GIVE : forall a x r, q_at Q a = Some x -> mirror (put_at Q a (Some (set_aref r x))) W).
    { intros a x r X. apply mirror_put. intros x1 e X1 PX. assert (x1 = x) by congruence; subst x1. exists (set_aref r x). split; auto. unfold alike; cbn; auto. }
    assert (TYPED : forall a x t f, q_at Q a = Some x -> t <> STRING -> mirror (snd (retype Q a (types t f x))) W).
    { intros a x t f X NT. destruct (a_parent x) as [e|] eqn:PX.
      - destruct (gd_par _ _ GD a x e X PX) as (y & Y & IN). apply in_map_iff in IN as (n & EA & IN). subst a.
        destruct (mi_st _ _ MI e y n x Y IN X) as (T & _). unfold types. rewrite T. destruct t; cbn; auto. congruence.
      - destruct (types t f x); cbn [retype snd]; auto. apply mirror_put. intros x1 e X1 PX1. congruence. }
    destruct o; cbn [by_name] in BN; try contradiction; try (apply mirror_new); try (apply mirror_set; auto; fail); try (apply mirror_remove; auto; fail);
      cbn [qmeans writes_dict].
    - destruct (q_el Q e) as [y|]; auto. destruct (entry ns name (q_ents y)) as [n|]; auto. destruct (q_at Q (l_attr n)); auto.
    - destruct (q_el Q e) as [y|]; auto.
    - destruct (q_el Q e) as [y|]; auto.
    - destruct (q_el Q e) as [y|]; auto. destruct (i <? N.of_nat (length (q_ents y)))%N; auto. destruct (nth_error (q_ents y) (N.to_nat i)) as [n|]; auto.
      destruct (q_at Q (l_attr n)) as [x|] eqn:X; auto. cbn [snd]. auto.
    - destruct (q_el Q e) as [y|]; auto.
    - destruct (q_el Q e) as [y|]; auto. destruct (entry ns name (q_ents y)) as [n|]; auto. destruct (q_at Q (l_attr n)) as [x|] eqn:X; auto. cbn [snd]. auto.
    - destruct junk as [[b sh] i]. cbn [snd].
      assert (NEW : forall e' y' m, q_el Q e' = Some y' -> In m (q_ents y') -> l_attr m <> q_nat Q).
      { intros e' y' m Y' IM EA. destruct (gd_ent _ _ GD e' y' m Y' IM) as (z & Z & _). apply (gd_ab _ _ GD) in Z. lia. }
      destruct MI as [A B C D]. constructor; cbn [q_el q_at q_nel]; auto.
      + intros e. rewrite B. destruct (q_el Q e) as [y|] eqn:Y; auto. cbn [option_map]. do 2 f_equal. apply map_ext_in. intros m IM. f_equal. unfold val. cbn [q_at]. rewrite put_other by eauto. auto.
      + intros e y m x Y IM X. rewrite put_other in X by eauto. eauto.
    - destruct (q_at Q a); auto.
    - destruct (q_at Q a); auto.
    - destruct (q_at Q a) as [x|] eqn:X; auto. apply TYPED; auto; discriminate.
    - destruct (q_at Q a); auto.
    - destruct (q_at Q a) as [x|] eqn:X; auto. apply TYPED; auto; discriminate.
    - destruct (q_at Q a); auto.
    - destruct (q_at Q a) as [x|] eqn:X; auto. apply TYPED; auto; discriminate.
    - destruct (q_at Q a) as [x|] eqn:X; auto. cbn [snd]. auto.
    - destruct (q_at Q a) as [x|] eqn:X; auto. cbn [snd]. apply mirror_put. intros x1 e X1 PX. assert (x1 = x) by congruence; subst x1.
      exists (set_aref (a_ref x - 1) x). unfold unless_free. cbn [set_aref a_parent]. rewrite PX. split; auto. unfold alike; cbn; auto.
    - destruct (q_at Q a); auto.
  Qed.
End Step.
