From Coq Require Import List Arith NArith Bool Lia ZifyBool ZifyNat ZifyN.
From Verif Require Import Base HashModel HashSpec.
Import ListNotations.

Lemma set_nth_length : forall A (l : list A) i x, length (set_nth l i x) = length l.
Proof. induction l; destruct i; simpl; auto. Qed.

Lemma nth_set_nth_eq : forall A (l : list A) i x d, i < length l -> nth i (set_nth l i x) d = x.
Proof. induction l; destruct i; simpl; intros; try lia; auto. apply IHl; lia. Qed.

Lemma nth_set_nth_neq : forall A (l : list A) i j x d, i <> j -> nth j (set_nth l i x) d = nth j l d.
Proof.
  induction l; destruct i; destruct j; simpl; intros; try congruence; auto.
Qed.

Lemma concat_set_nth_length : forall A (l : list (list A)) i x,
  i < length l ->
  length (concat (set_nth l i x)) + length (nth i l []) = length (concat l) + length x.
Proof.
  induction l; destruct i; simpl; intros; try lia.
  - rewrite !app_length. lia.
  - rewrite !app_length. specialize (IHl i x). lia.
Qed.

Section P.
  Variables K V : Type.
  Variable keq : K -> K -> bool.
  Variable khash : K -> N.
  Hypothesis good : good_keys K keq khash.

  Let krefl : forall a, keq a a = true := proj1 good.
  Let ksym : forall a b, keq a b = true -> keq b a = true := proj1 (proj2 good).
  Let ktrans : forall a b c, keq a b = true -> keq b c = true -> keq a c = true :=
    proj1 (proj2 (proj2 good)).
  Let khcompat : forall a b, keq a b = true -> khash a = khash b := proj2 (proj2 (proj2 good)).

  Notation cidx := (chain_index K V khash).
  Notation cfind := (chain_find K V keq).

  Lemma keq_comm : forall a b, keq a b = keq b a.
  Proof.
    intros a b. destruct (keq a b) eqn:E.
    - symmetry; auto.
    - destruct (keq b a) eqn:F; auto. apply ksym in F. congruence.
  Qed.

  Lemma keq_subst : forall a b c, keq a b = true -> keq a c = keq b c.
  Proof.
    intros a b c H. destruct (keq b c) eqn:E.
    - eapply ktrans; eauto.
    - destruct (keq a c) eqn:F; auto.
      assert (keq b c = true) by (eapply ktrans; [apply ksym; exact H | exact F]). congruence.
  Qed.

  Definition idx (n : nat) (k : K) : nat := N.to_nat (N.modulo (u32 (khash k)) (N.of_nat n)).

  Lemma cidx_pos : forall t k, length (ht_chains t) > 0 -> cidx t k = Some (idx (length (ht_chains t)) k).
  Proof.
    intros t k H. unfold chain_index, idx. destruct (length (ht_chains t)) eqn:E; try lia. reflexivity.
  Qed.

  Lemma idx_lt : forall n k, n > 0 -> idx n k < n.
  Proof.
    intros. unfold idx.
    assert (N.modulo (u32 (khash k)) (N.of_nat n) < N.of_nat n)%N by (apply N.mod_lt; lia). lia.
  Qed.

  Lemma idx_compat : forall n a b, keq a b = true -> idx n a = idx n b.
  Proof. intros. unfold idx. rewrite (khcompat _ _ H). reflexivity. Qed.

  Definition chain_ok (n c : nat) (ch : list (K * V)) : Prop :=
    Forall (fun e => idx n (fst e) = c) ch /\
    ForallOrdPairs (fun a b => keq (fst a) (fst b) = false) ch.

  Definition inv (t : htable K V) : Prop :=
    length (ht_chains t) > 0 /\
    (forall c, chain_ok (length (ht_chains t)) c (nth c (ht_chains t) [])) /\
    ht_nentries t = u32 (N.of_nat (length (concat (ht_chains t)))).

  Definition abs (t : htable K V) : K -> option V :=
    fun k => cfind (nth (idx (length (ht_chains t)) k) (ht_chains t) []) k.

  Lemma inv_create : forall n, n > 0 -> inv (hash_create n).
  Proof.
    intros n H. unfold inv, hash_create; simpl. rewrite repeat_length. split; auto. split.
    - intros c. assert (E : nth c (repeat (@nil (K*V)) n) [] = []).
      { destruct (nth_in_or_default c (repeat (@nil (K*V)) n) []) as [I|I]; auto.
        apply repeat_spec in I; auto. }
      rewrite E. split; constructor.
    - assert (E : concat (repeat (@nil (K*V)) n) = []) by (clear; induction n; simpl; auto).
      rewrite E. reflexivity.
  Qed.

  Lemma abs_create : forall n k, abs (hash_create n) k = None.
  Proof.
    intros. unfold abs, hash_create; simpl.
    match goal with |- context [nth ?c (repeat ?x n) ?d] =>
      destruct (nth_in_or_default c (repeat x n) d) as [I|I] end.
    - apply repeat_spec in I. rewrite I. reflexivity.
    - rewrite I. reflexivity.
  Qed.

  Lemma cfind_compat : forall l a b, keq a b = true -> cfind l a = cfind l b.
  Proof.
    induction l as [|[k v] l]; simpl; intros; auto.
    rewrite (keq_subst a b k H). destruct (keq b k); auto.
  Qed.

  Lemma abs_compat : forall t a b, keq a b = true -> abs t a = abs t b.
  Proof. intros. unfold abs. rewrite (idx_compat _ _ _ H). apply cfind_compat; auto. Qed.

  (** replace *)
  Lemma creplace_none : forall l k v, chain_replace K V keq l k v = None <-> cfind l k = None.
  Proof.
    induction l as [|[k' v'] l]; simpl; intros. { tauto. }
    destruct (keq k k'). { split; discriminate. }
    rewrite <- (IHl k v). destruct (chain_replace K V keq l k v); split; congruence.
  Qed.

  Lemma creplace_find : forall l k v l', chain_replace K V keq l k v = Some l' ->
    forall k', cfind l' k' = if keq k k' then Some v else cfind l k'.
  Proof.
    induction l as [|[k0 v0] l]; simpl; intros k v l' H k'. { discriminate. }
    destruct (keq k k0) eqn:E.
    - inversion H; subst; simpl.
      rewrite (keq_comm k' k0). rewrite <- (keq_subst k k0 k' E).
      destruct (keq k k') eqn:F; auto.
    - destruct (chain_replace K V keq l k v) eqn:R; inversion H; subst; simpl.
      rewrite (IHl _ _ _ R k').
      destruct (keq k' k0) eqn:F; auto.
      destruct (keq k k') eqn:G; auto.
      assert (keq k k0 = true) by (eapply ktrans; eauto). congruence.
  Qed.

  Lemma creplace_keys : forall l k v l', chain_replace K V keq l k v = Some l' -> map fst l' = map fst l.
  Proof.
    induction l as [|[k0 v0] l]; simpl; intros. { discriminate. }
    destruct (keq k k0).
    - inversion H; subst; auto.
    - destruct (chain_replace K V keq l k v) eqn:R; inversion H; subst; simpl. f_equal. eauto.
  Qed.

  Lemma chain_ok_keys : forall n c l, chain_ok n c l <->
    (Forall (fun k => idx n k = c) (map fst l) /\ ForallOrdPairs (fun a b => keq a b = false) (map fst l)).
  Proof.
    intros n c l. unfold chain_ok. apply and_iff_compat_l || idtac.
    assert (A : Forall (fun e => idx n (fst e) = c) l <-> Forall (fun k => idx n k = c) (map fst l))
      by (rewrite Forall_map; tauto).
    assert (B : ForallOrdPairs (fun a b => keq (fst a) (fst b) = false) l <->
                ForallOrdPairs (fun a b => keq a b = false) (map fst l)).
    { induction l as [|x l]; simpl; split; intros H; try constructor; inversion H; subst.
      - apply Forall_map; auto.
      - apply IHl; auto. rewrite Forall_map. inversion H; subst. clear - H2. tauto.
      - apply Forall_map in H2; auto.
      - apply IHl; auto. rewrite Forall_map. tauto. }
    tauto.
  Qed.

  Lemma find_none_forall : forall l k, cfind l k = None <-> Forall (fun e => keq k (fst e) = false) l.
  Proof.
    induction l as [|[k0 v0] l]; simpl; intros. { split; auto. }
    destruct (keq k k0) eqn:E; split; intros H; try discriminate.
    - inversion H; simpl in *; congruence.
    - constructor; simpl; auto. apply IHl; auto.
    - inversion H; subst. apply IHl; auto.
  Qed.

  (** delete *)
  Lemma cdel_none : forall l k, chain_del K V keq l k = None <-> cfind l k = None.
  Proof.
    induction l as [|[k0 v0] l]; simpl; intros. { tauto. }
    destruct (keq k k0). { split; discriminate. }
    rewrite <- IHl. destruct (chain_del K V keq l k) as [[? ?]|]; split; congruence.
  Qed.

  Lemma cdel_some : forall l k v l', chain_del K V keq l k = Some (v, l') ->
    cfind l k = Some v /\
    (exists a k0 b, l = a ++ (k0, v) :: b /\ l' = a ++ b /\ keq k k0 = true).
  Proof.
    induction l as [|[k0 v0] l]; simpl; intros. { discriminate. }
    destruct (keq k k0) eqn:E.
    - inversion H; subst. split; auto. exists [], k0, l'. auto.
    - destruct (chain_del K V keq l k) as [[x r]|] eqn:D; inversion H; subst.
      destruct (IHl _ _ _ D) as (F & a & k1 & b & -> & -> & Q). split; auto.
      exists ((k0, v0) :: a), k1, b. auto.
  Qed.

  Lemma FOP_app_inv : forall A (R : A -> A -> Prop) a b,
    ForallOrdPairs R (a ++ b) -> ForallOrdPairs R a /\ ForallOrdPairs R b /\ (forall x y, In x a -> In y b -> R x y).
  Proof.
    induction a; simpl; intros.
    - split; [constructor|]. split; auto. intros ? ? [].
    - inversion H; subst. destruct (IHa _ H3) as (X & Y & Z).
      rewrite Forall_app in H2. destruct H2 as [P Q].
      split; [constructor; auto|]. split; auto.
      intros x y [->|I] J; auto. rewrite Forall_forall in Q. auto.
  Qed.

  Lemma FOP_app : forall A (R : A -> A -> Prop) a b,
    ForallOrdPairs R a -> ForallOrdPairs R b -> (forall x y, In x a -> In y b -> R x y) ->
    ForallOrdPairs R (a ++ b).
  Proof.
    induction a; simpl; intros; auto.
    inversion H; subst. constructor.
    - rewrite Forall_app; split; auto. apply Forall_forall. auto.
    - apply IHa; auto.
  Qed.

  Lemma cfind_app_distinct : forall a k0 v0 b,
    ForallOrdPairs (fun a b => keq (fst a) (fst b) = false) (a ++ (k0, v0) :: b) ->
    forall k, cfind (a ++ b) k = if keq k0 k then None else cfind (a ++ (k0, v0) :: b) k.
  Proof.
    induction a as [|[k1 v1] a]; simpl; intros k0 v0 b H k; inversion H; subst.
    - rewrite (keq_comm k k0). destruct (keq k0 k) eqn:E; auto.
      apply find_none_forall. eapply Forall_impl; [|exact H2]. simpl. intros [k2 v2]; simpl; intros.
      rewrite <- (keq_subst k0 k k2 E). auto.
    - rewrite (IHa _ _ _ H3 k). destruct (keq k k1) eqn:E; auto.
      destruct (keq k0 k) eqn:F; auto.
      rewrite Forall_app in H2. destruct H2 as [_ H2]. inversion H2; subst; simpl in *.
      assert (keq k0 k1 = true) by (eapply ktrans; eauto). rewrite keq_comm in H0. congruence.
  Qed.

  Lemma abs_set : forall t c ch k,
    length (ht_chains t) > 0 -> c < length (ht_chains t) ->
    forall ne, abs (mkHt (set_nth (ht_chains t) c ch) ne) k =
    if Nat.eqb (idx (length (ht_chains t)) k) c then cfind ch k else abs t k.
  Proof.
    intros t c ch k H0 H ne. unfold abs; simpl. rewrite set_nth_length.
    destruct (Nat.eqb_spec (idx (length (ht_chains t)) k) c) as [->|N].
    - rewrite nth_set_nth_eq; auto.
    - rewrite nth_set_nth_neq; auto.
  Qed.

  Lemma inv_set : forall t c ch d,
    inv t -> c < length (ht_chains t) -> chain_ok (length (ht_chains t)) c ch ->
    (u32 (N.of_nat (length (concat (set_nth (ht_chains t) c ch)))) = d) ->
    inv (mkHt (set_nth (ht_chains t) c ch) d).
  Proof.
    intros t c ch d (A & B & C) L O D. unfold inv; simpl. rewrite set_nth_length.
    split; auto. split; auto.
    intros c'. destruct (Nat.eq_dec c c') as [<-|N].
    - rewrite nth_set_nth_eq; auto.
    - rewrite nth_set_nth_neq; auto.
  Qed.

  Lemma u32_add : forall a b, u32 (u32 a + b) = u32 (a + b).
  Proof. intros. unfold u32. rewrite N.add_mod_idemp_l; auto. lia. Qed.

  Definition feq (m m' : K -> option V) : Prop := forall k, m k = m' k.

  Lemma step_refines : forall t o m, inv t -> feq (abs t) m ->
    exists t' x, hstep K V keq khash o t = Ok x t' /\ inv t' /\
      length (ht_chains t') = length (ht_chains t) /\
      feq (abs t') (fst (fstep keq m o)) /\ x = snd (fstep keq m o).
  Proof.
    intros t o m I E. pose proof I as (P & CO & NE).
    destruct o as [k v r|k|k]; simpl; unfold bind, ret, hash_add, hash_get, hash_del.
    - destruct k as [k|]; [|exists t, (OBool false); auto].
      destruct v as [v|]; [|exists t, (OBool false); auto].
      rewrite (cidx_pos t k P). set (c := idx (length (ht_chains t)) k).
      assert (Lc : c < length (ht_chains t)) by (apply idx_lt; auto).
      destruct (chain_replace K V keq (nth c (ht_chains t) []) k v) as [ch'|] eqn:R.
      + assert (F : exists w, m k = Some w).
        { rewrite <- (E k). unfold abs. fold c. destruct (cfind (nth c (ht_chains t) []) k) eqn:G; eauto.
          apply (creplace_none _ _ v) in G. congruence. }
        destruct F as [w F]. rewrite F.
        destruct r; eexists; eexists; (split; [reflexivity|]); simpl.
        * split; [|split; [apply set_nth_length|split; auto]].
          { apply inv_set; auto.
            - apply chain_ok_keys. rewrite (creplace_keys _ _ _ _ R). apply chain_ok_keys. apply CO.
            - rewrite NE. f_equal. f_equal.
              pose proof (concat_set_nth_length _ (ht_chains t) c ch' Lc).
              assert (length ch' = length (nth c (ht_chains t) [])).
              { rewrite <- (map_length fst ch'). rewrite (creplace_keys _ _ _ _ R). apply map_length. }
              unfold bytes in *. lia. }
          { intros k'. rewrite abs_set; auto. unfold fset. rewrite (creplace_find _ _ _ _ R k').
            destruct (Nat.eqb_spec (idx (length (ht_chains t)) k') c).
            - destruct (keq k k'); auto. rewrite <- (E k'). unfold abs. rewrite e. auto.
            - destruct (keq k k') eqn:G; auto. apply (idx_compat (length (ht_chains t))) in G. unfold c in n. congruence. }
        * auto.
      + apply creplace_none in R.
        assert (F : m k = None) by (rewrite <- (E k); unfold abs; exact R).
        rewrite F. eexists; eexists; (split; [reflexivity|]); simpl.
        split; [|split; [apply set_nth_length|split; auto]].
        * apply inv_set; auto.
          { destruct (CO c) as [X Y]. split.
            - constructor; auto.
            - constructor; auto. apply find_none_forall in R. auto. }
          { rewrite NE. rewrite u32_add. f_equal.
            pose proof (concat_set_nth_length _ (ht_chains t) c ((k, v) :: nth c (ht_chains t) []) Lc) as Q.
            simpl in Q. lia. }
        * intros k'. rewrite abs_set; auto. unfold fset. simpl. rewrite (keq_comm k' k).
          destruct (Nat.eqb_spec (idx (length (ht_chains t)) k') c).
          { destruct (keq k k'); auto. rewrite <- (E k'). unfold abs. rewrite e. auto. }
          { destruct (keq k k') eqn:G; auto. apply (idx_compat (length (ht_chains t))) in G. unfold c in n. congruence. }
    - destruct k as [k|]; [|exists t, (OVal None); auto].
      rewrite (cidx_pos t k P). eexists; eexists; (split; [reflexivity|]); simpl.
      split; auto. split; auto. split; auto. rewrite <- (E k). reflexivity.
    - destruct k as [k|]; [|exists t, (OVal None); auto].
      rewrite (cidx_pos t k P). set (c := idx (length (ht_chains t)) k).
      assert (Lc : c < length (ht_chains t)) by (apply idx_lt; auto).
      destruct (chain_del K V keq (nth c (ht_chains t) []) k) as [[v ch']|] eqn:D.
      + destruct (cdel_some _ _ _ _ D) as (F & a & k0 & b & X & Y & Z).
        eexists; eexists; (split; [reflexivity|]); simpl.
        split; [|split; [apply set_nth_length|split]].
        * apply inv_set; auto.
          { specialize (CO c). rewrite X in CO. destruct CO as [O1 O2]. subst ch'. split.
            - rewrite Forall_app in *. destruct O1 as [? O1]. inversion O1; auto.
            - apply FOP_app_inv in O2. destruct O2 as (U & W & T). inversion W; subst.
              apply FOP_app; auto. intros; apply T; auto. right; auto. }
          { rewrite NE. rewrite u32_add.
            pose proof (concat_set_nth_length _ (ht_chains t) c ch' Lc) as Q.
            rewrite X in Q at 1. rewrite Y in Q. rewrite !app_length in Q. simpl in Q.
            unfold u32, two32.
            match goal with |- _ = (?x mod _)%N => replace x with
              (N.of_nat (length (concat (set_nth (ht_chains t) c ch'))) + 1 * 4294967296)%N
              by (subst ch'; lia) end.
            rewrite N.mod_add; auto; lia. }
        * intros k'. rewrite abs_set; auto. unfold fdel. subst ch'.
          assert (O2 := proj2 (CO c)). rewrite X in O2.
          rewrite (cfind_app_distinct _ _ _ _ O2 k').
          rewrite <- (keq_subst k k0 k' Z).
          destruct (Nat.eqb_spec (idx (length (ht_chains t)) k') c).
          { destruct (keq k k'); auto. rewrite <- (E k'). unfold abs. rewrite e. rewrite X. auto. }
          { destruct (keq k k') eqn:G; auto. apply (idx_compat (length (ht_chains t))) in G. unfold c in n. congruence. }
        * rewrite <- (E k). unfold abs. fold c. rewrite F. auto.
      + apply cdel_none in D.
        eexists; eexists; (split; [reflexivity|]); simpl. split; auto. split; auto. split.
        * intros k'. unfold fdel. rewrite (E k'). destruct (keq k k') eqn:G; auto.
          rewrite <- (E k'). rewrite <- (abs_compat t k k' G). unfold abs. fold c. auto.
        * rewrite <- (E k). unfold abs. fold c. rewrite D. auto.
  Qed.

  Lemma fstep_ext : forall m m' o, feq m m' ->
    feq (fst (fstep keq m o)) (fst (fstep keq m' o)) /\ snd (fstep keq m o) = snd (fstep keq m' o).
  Proof.
    intros m m' o E. destruct o as [[k|] [v|] r|[k|]|[k|]]; simpl; try (split; auto; fail).
    - rewrite (E k). destruct (m' k); [destruct r|]; simpl; split; auto;
        intros k'; unfold fset; destruct (keq k k'); auto.
    - rewrite (E k); auto.
    - rewrite (E k); split; auto. intros k'; unfold fdel; destruct (keq k k'); auto.
  Qed.

  Lemma run_refines : forall os t m, inv t -> feq (abs t) m ->
    exists t' xs, hrun K V keq khash os t = Ok xs t' /\ inv t' /\
      length (ht_chains t') = length (ht_chains t) /\
      feq (abs t') (fst (frun keq m os)) /\ xs = snd (frun keq m os).
  Proof.
    induction os as [|o os]; intros t m I E; simpl.
    - exists t, []. unfold ret. auto.
    - destruct (step_refines t o m I E) as (t1 & x & S1 & I1 & L1 & E1 & X1).
      destruct (IHos t1 _ I1 E1) as (t2 & xs & S2 & I2 & L2 & E2 & X2).
      unfold bind. rewrite S1. rewrite S2. unfold ret.
      destruct (fstep keq m o) as [m1 y] eqn:F1; simpl in *.
      destruct (frun keq m1 os) as [m2 ys] eqn:F2; simpl in *.
      exists t2, (x :: xs). split; auto. split; auto. split; [congruence|]. split; auto. congruence.
  Qed.

  (** Iteration *)
  Lemma next_chain_spec : forall l c,
    match next_chain K V l c with
    | None => concat l = []
    | Some (c', k) => exists v r, c <= c' /\ c' < c + length l /\
        nth (c' - c) l [] = (k, v) :: r /\
        concat l = ((k, v) :: r) ++ concat (skipn (S c' - c) l)
    end.
  Proof.
    induction l as [|ch l]; intros c; cbn [next_chain]; auto.
    destruct ch as [|[k v] r].
    - specialize (IHl (S c)). destruct (next_chain K V l (S c)) as [[c' k]|]; auto.
      destruct IHl as (v & r & A & B & C & D). exists v, r.
      split; [lia|]. split; [simpl; lia|].
      replace (c' - c) with (S (c' - S c)) by lia.
      replace (S c' - c) with (S (S c' - S c)) by lia. simpl. auto.
    - exists v, r. split; [lia|]. split; [simpl; lia|].
      replace (c - c) with 0 by lia. replace (S c - c) with 1 by lia. simpl. auto.
  Qed.

  Lemma skipn_skipn' : forall A n m (l : list A), skipn n (skipn m l) = skipn (n + m) l.
  Proof.
    induction m; intros l; [rewrite Nat.add_0_r; reflexivity|].
    destruct l; [rewrite !skipn_nil; reflexivity|].
    rewrite Nat.add_succ_r. simpl. apply IHm.
  Qed.

  Lemma skipn_concat_next : forall c (l : list (list (K*V))),
    concat (skipn c l) = nth c l [] ++ concat (skipn (S c) l).
  Proof.
    induction c; destruct l; simpl; auto.
    rewrite IHc. destruct l; simpl; auto.
  Qed.

  (** entries not yet visited *)
  Definition remaining (t : htable K V) (ctx : iter_ctx) : list (K * V) :=
    match ctx with
    | None => concat (ht_chains t)
    | Some (c, i) => skipn (S i) (nth c (ht_chains t) []) ++ concat (skipn (S c) (ht_chains t))
    end.

  Lemma iterate_spec : forall t ctx,
    match hash_iterate K V t ctx with
    | None => remaining t ctx = []
    | Some (k, ctx') => exists v, remaining t ctx = (k, v) :: remaining t ctx'
    end.
  Proof.
    intros t ctx.
    assert (SC : forall c, match (match next_chain K V (skipn c (ht_chains t)) c with
                                  | Some (c', k) => Some (k, Some (c', 0)) | None => None end) with
                | None => concat (skipn c (ht_chains t)) = []
                | Some (k, ctx') => exists v, concat (skipn c (ht_chains t)) = (k, v) :: remaining t ctx'
                end).
    { intros c. pose proof (next_chain_spec (skipn c (ht_chains t)) c) as H.
      destruct (next_chain K V (skipn c (ht_chains t)) c) as [[c' k]|]; auto.
      destruct H as (v & r & A & B & C & D). exists v. rewrite D. cbn [app remaining]. f_equal.
      assert (X : nth c' (ht_chains t) [] = (k, v) :: r).
      { rewrite <- C. clear -A. revert c A. generalize (ht_chains t) as l.
        induction c'; intros l c A.
        - assert (c = 0) by lia. subst. destruct l; reflexivity.
        - destruct c; [destruct l; reflexivity|].
          destruct l; simpl; [destruct (c' - c); auto|]. apply IHc'. lia. }
      rewrite X. cbn [skipn app]. f_equal.
      rewrite skipn_skipn'. replace (S c' - c + c) with (S c') by lia. reflexivity. }
    unfold hash_iterate. destruct ctx as [[c i]|].
    - destruct (nth_error (nth c (ht_chains t) []) (S i)) as [[k v]|] eqn:N.
      + exists v. unfold remaining. 
        assert (X : skipn (S i) (nth c (ht_chains t) []) = (k, v) :: skipn (S (S i)) (nth c (ht_chains t) [])).
        { revert N. generalize (nth c (ht_chains t) []) as l. generalize (S i) as j.
          induction j; destruct l; simpl; intros; try discriminate.
          - inversion N; auto.
          - apply IHj; auto. }
        rewrite X. reflexivity.
      + specialize (SC (S c)). 
        assert (X : skipn (S i) (nth c (ht_chains t) []) = []).
        { apply nth_error_None in N. apply skipn_all2; auto. }
        cbn [remaining]. rewrite X. simpl app.
        destruct (match next_chain K V (skipn (S c) (ht_chains t)) (S c) with
                  | Some (c', k) => Some (k, Some (c', 0)) | None => None end) as [[k ctx']|]; auto.
    - specialize (SC 0). simpl in SC. cbn [remaining].
      destruct (match next_chain K V (ht_chains t) 0 with
                | Some (c', k) => Some (k, Some (c', 0)) | None => None end) as [[k ctx']|] eqn:Q;
        simpl skipn; rewrite Q; auto.
  Qed.

  Lemma keys_from_spec : forall fuel t ctx, length (remaining t ctx) < fuel ->
    hash_keys_from K V fuel t ctx = Some (map fst (remaining t ctx)).
  Proof.
    induction fuel; intros t ctx L; [lia|]. cbn [hash_keys_from].
    pose proof (iterate_spec t ctx) as H.
    destruct (hash_iterate K V t ctx) as [[k ctx']|].
    - destruct H as [v H]. rewrite H. rewrite H in L. simpl in L.
      rewrite IHfuel by lia. reflexivity.
    - rewrite H. reflexivity.
  Qed.

  Lemma keys_spec : forall t : htable K V, hash_keys t = Some (map fst (concat (ht_chains t))).
  Proof. intros. unfold hash_keys. apply keys_from_spec. unfold hash_size_bound. simpl. lia. Qed.

  Lemma chains_distinct : forall n (cs : list (list (K * V))) c0,
    (forall c, chain_ok n (c0 + c) (nth c cs [])) ->
    ForallOrdPairs (fun a b => keq (fst a) (fst b) = false) (concat cs) /\
    (forall e, In e (concat cs) -> c0 <= idx n (fst e)).
  Proof.
    induction cs as [|ch cs]; intros c0 H; simpl.
    - split; [constructor|]. intros ? [].
    - destruct (IHcs (S c0)) as [A B].
      { intros c. specialize (H (S c)). simpl in H. replace (S c0 + c) with (c0 + S c) by lia. auto. }
      pose proof (H 0) as [C D]. simpl in C, D. rewrite Nat.add_0_r in C.
      rewrite Forall_forall in C.
      split.
      + apply FOP_app; auto. intros x y X Y. specialize (C _ X). specialize (B _ Y).
        destruct (keq (fst x) (fst y)) eqn:E; auto. apply (idx_compat n) in E. lia.
      + intros e I. apply in_app_or in I. destruct I as [I|I]; [rewrite (C _ I); lia|].
        specialize (B _ I). lia.
  Qed.

  Lemma in_concat_chain : forall t e, inv t ->
    (In e (concat (ht_chains t)) <-> In e (nth (idx (length (ht_chains t)) (fst e)) (ht_chains t) [])).
  Proof.
    intros t e (P & CO & _). split; intros H.
    - apply in_concat in H. destruct H as (ch & I & J).
      apply (In_nth _ _ []) in I. destruct I as (c & L & X). subst ch.
      destruct (CO c) as [F _]. rewrite Forall_forall in F. rewrite (F _ J). auto.
    - apply in_concat. eexists. split; [|exact H]. apply nth_In. apply idx_lt; auto.
  Qed.

  Lemma cfind_exists : forall l k, (exists v, cfind l k = Some v) <-> (exists e, In e l /\ keq k (fst e) = true).
  Proof.
    intros l k. destruct (cfind l k) eqn:E.
    - split; [|eauto]. intros _. revert E. induction l as [|[k0 v0] l]; simpl; intros; [discriminate|].
      destruct (keq k k0) eqn:Q.
      + exists (k0, v0). auto.
      + destruct (IHl E) as (e & I & J). exists e; auto.
    - split; [intros [? ?]; discriminate|]. intros (e & I & J).
      apply find_none_forall in E. rewrite Forall_forall in E. rewrite (E _ I) in J. discriminate.
  Qed.

  Lemma keys_list_map : forall t m, inv t -> feq (abs t) m ->
    lists_keys keq m (map fst (concat (ht_chains t))).
  Proof.
    intros t m I E. split.
    - intros k. rewrite <- (E k). unfold abs. rewrite cfind_exists.
      rewrite existsb_exists. split.
      + intros (e & A & B). exists (fst e). split; auto. apply in_map.
        apply in_concat_chain; auto. rewrite <- (idx_compat _ _ _ B). auto.
      + intros (k' & A & B). apply in_map_iff in A. destruct A as (e & <- & A).
        exists e. split; auto. rewrite (idx_compat _ _ _ B). apply in_concat_chain; auto.
    - pose proof I as (P & CO & _). 
      destruct (chains_distinct (length (ht_chains t)) (ht_chains t) 0) as [A _]; [simpl; auto|].
      clear - A. induction (concat (ht_chains t)); simpl; constructor; inversion A; subst.
      + apply Forall_map; auto.
      + auto.
  Qed.

  (** Clone *)
  Lemma clone_loop_spec : forall ks t m ret mr, inv t -> feq (abs t) m ->
    inv ret -> feq (abs ret) mr ->
    ForallOrdPairs (fun a b => keq a b = false) ks ->
    (forall k, In k ks -> mr k = None) ->
    (forall k, In k ks -> exists v, m k = Some v) ->
    exists ret', clone_loop K V keq khash ks t ret = Ok true ret' /\ inv ret' /\
      length (ht_chains ret') = length (ht_chains ret) /\
      feq (abs ret') (fun k => if existsb (keq k) ks then m k else mr k).
  Proof.
    induction ks as [|k ks]; intros t m rt mr It Et Ir Er FO NN SS; cbn [clone_loop existsb].
    - exists rt. auto.
    - inversion FO; subst.
      assert (G : hash_get K V keq khash (Some k) t = Ok (m k) t).
      { unfold hash_get. rewrite (cidx_pos t k (proj1 It)). rewrite <- (Et k). reflexivity. }
      rewrite G. destruct (SS k (or_introl eq_refl)) as [v Sv].
      destruct (step_refines rt (HAdd (Some k) (m k) false) mr Ir Er) as (r1 & x & S1 & I1 & L1 & E1 & X1).
      rewrite Sv in *. cbn [fstep hstep] in S1, E1, X1.
      rewrite (NN k (or_introl eq_refl)) in E1, X1. simpl in E1, X1. subst x.
      unfold bind in S1. destruct (hash_add K V keq khash (Some k) (Some v) false rt) as [b s| |]; try discriminate.
      unfold HashModel.hstep, Base.ret in S1. inversion S1; subst; clear S1.
      destruct (IHks t m r1 _ It Et I1 E1) as (r2 & C2 & I2 & L2 & E2); auto.
      { intros k' Hk'. unfold fset. rewrite Forall_forall in H1. rewrite (H1 _ Hk'). apply NN. right; auto. }
      { intros; apply SS; right; auto. }
      exists r2. split; auto. split; auto. split; [congruence|].
      intros k'. rewrite (E2 k'). unfold fset. rewrite (keq_comm k' k).
      destruct (keq k k') eqn:Q; simpl; auto.
      destruct (existsb (keq k') ks) eqn:Z; auto.
      rewrite <- (Et k'). rewrite <- (abs_compat t k k' Q). rewrite (Et k). congruence.
  Qed.

  Lemma clone_spec : forall t m, inv t -> feq (abs t) m ->
    exists t', hash_clone K V keq khash t = Ok true t' /\ inv t' /\
      length (ht_chains t') = length (ht_chains t) /\ feq (abs t') m.
  Proof.
    intros t m I E. unfold hash_clone. rewrite keys_spec.
    pose proof (keys_list_map t m I E) as [A B].
    destruct (clone_loop_spec (map fst (concat (ht_chains t))) t m (hash_create (length (ht_chains t))) (fun _ => None)) as (t' & C & I' & L & E'); auto.
    - apply inv_create. apply I.
    - intros k. apply abs_create.
    - intros k Hk. apply A. apply existsb_exists. exists k; auto.
    - exists t'. split; auto. split; auto. split.
      + rewrite L. simpl. apply repeat_length.
      + intros k. rewrite (E' k). destruct (existsb (keq k) (map fst (concat (ht_chains t)))) eqn:Q; auto.
        destruct (m k) eqn:R; auto. assert (existsb (keq k) (map fst (concat (ht_chains t))) = true) by (apply A; eauto).
        congruence.
  Qed.

End P.

(** Main facts, stated for [hrun] from [hash_create]. *)
Lemma hash_refines_map : forall (K V : Type) (keq : K -> K -> bool) (khash : K -> N),
  good_keys K keq khash ->
  forall (nchains : nat) (os : list (hop K V)), nchains > 0 ->
  exists t,
    hrun K V keq khash os (hash_create nchains) = Ok (snd (frun keq fempty os)) t /\
    (exists ks, hash_keys t = Some ks /\ lists_keys keq (fst (frun keq fempty os)) ks /\
                hash_length t = u32 (N.of_nat (length ks))) /\
    (exists t', hash_clone K V keq khash t = Ok true t' /\
       forall os', exists t1 t2 xs,
         hrun K V keq khash os' t = Ok xs t1 /\ hrun K V keq khash os' t' = Ok xs t2 /\
         xs = snd (frun keq (fst (frun keq fempty os)) os')).
Proof.
  intros K V keq khash G n os P.
  assert (I0 : inv K V keq khash (hash_create n)) by (apply inv_create; auto).
  assert (E0 : feq K V (abs K V keq khash (hash_create n)) fempty)
    by (intros k; apply abs_create).
  destruct (run_refines K V keq khash G os _ _ I0 E0) as (t & xs & R & I & L & E & X).
  exists t. rewrite R, X. split; auto. split.
  - exists (map fst (concat (ht_chains t))). split; [eapply keys_spec; eauto|].
    split; [eapply keys_list_map; eauto|].
    unfold hash_length. rewrite map_length. apply I.
  - destruct (clone_spec K V keq khash G t _ I E) as (t' & C & I' & L' & E').
    exists t'. split; auto. intros os'.
    destruct (run_refines K V keq khash G os' _ _ I E) as (t1 & ys & R1 & _ & _ & _ & X1).
    destruct (run_refines K V keq khash G os' _ _ I' E') as (t2 & zs & R2 & _ & _ & _ & X2).
    exists t1, t2, ys. rewrite R1, R2. split; auto. split; auto. rewrite X1, X2. auto.
Qed.
