(** A test by computation that a heap is well linked, for concrete heaps. *)
From Coq Require Import List Arith NArith Bool Lia ZifyBool ZifyNat ZifyN.
From Verif Require Import Base HeapModel HeapSpec HeapInv HeapExec HeapInsert HeapCreate HistModel TreeSpec TreeProofs TreeWitness WalkModel WalkSpec.
Import ListNotations.

Fixpoint walkb (f : nat) (h : heap) (o : option id) : option (list id) :=
  match o with
  | None => Some []
  | Some i =>
      match f, h i with
      | S f, Some n => option_map (cons i) (walkb f h (n_prev n))
      | _, _ => None
      end
  end.
Lemma walkb_bwd : forall f h o l, walkb f h o = Some l -> bwd h o l.
Proof.
  induction f; intros h [i|] l E; cbn [walkb] in E; try (inversion E; constructor); try discriminate.
  destruct (h i) as [n|] eqn:H; [|discriminate]. destruct (walkb f h (n_prev n)) eqn:W; [|discriminate]. simpl in E. inversion E; subst.
  econstructor; eauto.
Qed.

Fixpoint topb (f : nat) (h : heap) (i : id) : bool :=
  match f, h i with
  | S f, Some n => match n_parent n with None => true | Some p => topb f h p end
  | _, _ => false
  end.
Lemma topb_ok : forall f h i, topb f h i = true -> exists r, anc h r i /\ top_node h r.
Proof.
  induction f; intros h i E; cbn [topb] in E; [discriminate|]. destruct (h i) as [n|] eqn:H; [|discriminate].
  destruct (n_parent n) as [p|] eqn:P.
  - destruct (IHf _ _ E) as (r & A & B). exists r. split; auto. econstructor; eauto.
  - exists i. split; [constructor|]. split; [exists n; auto|]. unfold parent_of. rewrite H. auto.
Qed.

Definition nestsb (p c : ntype) : bool := type_permitted p c.
Fixpoint nodupb (l : list id) : bool := match l with [] => true | x :: l => negb (existsb (Nat.eqb x) l) && nodupb l end.
Lemma existsb_in : forall x l, existsb (Nat.eqb x) l = true <-> In x l.
Proof.
  intros x l. rewrite existsb_exists. split.
  - intros (y & A & B). apply Nat.eqb_eq in B. subst; auto.
  - intros I. exists x. split; auto. apply Nat.eqb_refl.
Qed.
Lemma nodupb_ok : forall l, nodupb l = true -> NoDup l.
Proof.
  induction l as [|x l]; intros E; constructor; simpl in E; apply andb_prop in E; destruct E as [E1 E2]; auto.
  intros I. apply existsb_in in I. rewrite I in E1. discriminate.
Qed.

Definition childb (h : heap) (p c : id) : bool :=
  match h c with Some n => oid_eqb (n_parent n) (Some p) && negb (ntype_eqb (n_type n) ATTRIBUTE) | None => false end.
Definition node_ok (s : st) (i : id) : bool :=
  let h := s_heap s in
  match h i with
  | None => true
  | Some n =>
      match kidsn s i with
      | None => false
      | Some l =>
          match walkb 20 h (n_last n) with
          | None => false
          | Some l' => if list_eq_dec Nat.eq_dec l' (rev l) then true else false
          end && nodupb l &&
          forallb (fun c => Bool.eqb (existsb (Nat.eqb c) l) (childb h i c)) (seq 0 (s_nxt s)) &&
          forallb (fun c => match h c with Some _ => true | None => false end) l
      end &&
      match n_parent n with
      | None => true
      | Some p => match h p with
                  | Some np => ntype_eqb (n_type n) ATTRIBUTE || type_permitted (n_type np) (n_type n)
                  | None => false
                  end
      end &&
      topb 20 h i &&
      forallb (fun a => match h a with Some na => ntype_eqb (n_type na) ATTRIBUTE | None => false end) (n_attrs n) &&
      match n_owner n with
      | None => ntype_eqb (n_type n) DOCTYPE
      | Some d => match h d with Some _ => true | None => false end
      end &&
      (n_ref n + 1 <? two32)%N
  end.

Definition linkedb (s : st) : bool := forallb (node_ok s) (seq 0 (s_nxt s)).

Lemma linkedb_ok : forall s, (forall i, s_nxt s <= i -> s_heap s i = None) -> linkedb s = true -> linked s /\ counted s.
Proof.
  intros s D E. unfold linkedb in E. rewrite forallb_forall in E.
  assert (K : forall i n, s_heap s i = Some n -> i < s_nxt s /\ node_ok s i = true).
  { intros i n H. assert (i < s_nxt s).
    { destruct (le_lt_dec (s_nxt s) i) as [LE|]; auto. rewrite (D _ LE) in H. discriminate. }
    split; auto. apply E. apply in_seq. lia. }
  assert (K' : forall i n, s_heap s i = Some n -> exists l, kidsn s i = Some l /\ walkb 20 (s_heap s) (n_last n) = Some (rev l) /\
     NoDup l /\ (forall c, In c l <-> childb (s_heap s) i c = true) /\
     (forall p, n_parent n = Some p -> exists np, s_heap s p = Some np /\ (n_type n = ATTRIBUTE \/ type_permitted (n_type np) (n_type n) = true)) /\
     topb 20 (s_heap s) i = true /\
     (forall a, In a (n_attrs n) -> type_of (s_heap s) a = Some ATTRIBUTE) /\
     (n_owner n = None -> n_type n = DOCTYPE) /\ (forall d, n_owner n = Some d -> live (s_heap s) d) /\ (n_ref n + 1 < two32)%N).
  { intros i n H. destruct (K _ _ H) as [LT OK]. unfold node_ok in OK. rewrite H in OK.
    repeat rewrite andb_true_iff in OK. destruct OK as (((((O1 & O2) & O3) & O4) & O5) & O6).
    destruct (kidsn s i) as [l|] eqn:KI; [|discriminate]. exists l. repeat rewrite andb_true_iff in O1. destruct O1 as (((P1 & P2) & P3) & P4).
    destruct (walkb 20 (s_heap s) (n_last n)) as [l'|]; [|discriminate]. destruct (list_eq_dec Nat.eq_dec l' (rev l)) as [Q|]; [|discriminate]. subst l'.
    rewrite forallb_forall in P3, P4, O4.
    split; auto. split; auto. split; [apply nodupb_ok; auto|]. split; [|split; [|split; [|split; [|split; [|split]]]]]; auto.
    - intros c. destruct (s_heap s c) as [nc|] eqn:HC.
      + assert (I : In c (seq 0 (s_nxt s))) by (apply in_seq; destruct (K _ _ HC); lia). specialize (P3 _ I).
        apply eqb_prop in P3. rewrite <- existsb_in, P3. tauto.
      + unfold childb. rewrite HC. split; [|discriminate]. intros I. specialize (P4 _ I). rewrite HC in P4. discriminate.
    - intros p P. rewrite P in O2. destruct (s_heap s p) as [np|]; [|discriminate]. exists np. split; auto.
      apply orb_prop in O2. rewrite ntype_eqb_eq in O2. auto.
    - intros a I. specialize (O4 _ I). unfold type_of. destruct (s_heap s a); [|discriminate]. apply ntype_eqb_eq in O4. simpl. congruence.
    - intros O. rewrite O in O5. apply ntype_eqb_eq in O5. auto.
    - intros d O. rewrite O in O5. unfold live. destruct (s_heap s d); [eauto|discriminate].
    - apply N.ltb_lt. auto. }
  split.
  - constructor.
    + intros i (n & H). apply (K _ _ H).
    + intros p (n & H). destruct (K' _ _ H) as (l & A1 & A2 & A3 & A4 & _). exists l, n. split; auto.
      destruct (kidsn_children _ _ _ A1) as (n' & H' & F). assert (n' = n) by congruence; subst.
      split; auto. split; [eapply walkb_bwd; eauto|]. split; auto. intros c. rewrite A4. unfold childb. split.
      * destruct (s_heap s c) as [nc|]; [|discriminate]. intros Q. apply andb_prop in Q. destruct Q as [Q1 Q2].
        exists nc. split; auto. rewrite oid_eqb_eq in Q1. split; auto. intros X. rewrite X in Q2. discriminate.
      * intros (nc & C1 & C2 & C3). rewrite C1, C2. rewrite oid_eqb_refl. apply ntype_eqb_neq in C3. rewrite C3. reflexivity.
    + intros i n p H P. destruct (K' _ _ H) as (l & _ & _ & _ & _ & A & _). destruct (A _ P) as (np & B & _). exists np; auto.
    + intros i (n & H). destruct (K' _ _ H) as (l & _ & _ & _ & _ & _ & A & _). eapply topb_ok; eauto.
    + intros i n p np H P HP NA. destruct (K' _ _ H) as (l & _ & _ & _ & _ & A & _). destruct (A _ P) as (np' & B & [C|C]); [congruence|].
      assert (np' = np) by congruence; subst. apply HeapOps.nests_iff; auto.
    + intros i n a H I. destruct (K' _ _ H) as (l & _ & _ & _ & _ & _ & _ & A & _). auto.
    + intros i n H T. destruct (K' _ _ H) as (l & _ & _ & _ & _ & _ & _ & _ & A & _). destruct (n_owner n); eauto. destruct T. auto.
    + intros i n d H T O. destruct (K' _ _ H) as (l & _ & _ & _ & _ & _ & _ & _ & _ & A & _). auto.
  - intros i n H. destruct (K' _ _ H) as (l & _ & _ & _ & _ & _ & _ & _ & _ & _ & A). auto.
Qed.
