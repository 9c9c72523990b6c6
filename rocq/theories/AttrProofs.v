(** The attribute code does what AttrSpec says: the heap against the meaning. *)
From Coq Require Import List Arith NArith Bool Lia ZifyBool ZifyNat ZifyN.
From Verif Require Import Base StringModel StringSpec StringProofs NameModel NameProofs RingModel RingSpec RingProofs AttrModel AttrSpec AttrRing.
Import ListNotations.
Local Open Scope dom_scope.

Ltac step H := rewrite (rbind_ok _ _ _ _ _ _ _ _ H).
Lemma bind_ret : forall S A B (a : A) (f : A -> M S B) s, bind (ret a) f s = f a s.
Proof. reflexivity. Qed.
Lemma bind_assoc : forall S A B C (m : M S A) (f : A -> M S B) (g : B -> M S C) s, bind (bind m f) g s = bind m (fun a => bind (f a) g) s.
Proof. intros. unfold bind. destruct (m s); reflexivity. Qed.

Lemma put_same : forall A (f : nat -> option A) i v, put f i v i = v.
Proof. intros. unfold put. rewrite Nat.eqb_refl. auto. Qed.
Lemma put_other : forall A (f : nat -> option A) i v j, j <> i -> put f i v j = f j.
Proof. intros. unfold put. apply Nat.eqb_neq in H. rewrite H. auto. Qed.
Lemma put_cases : forall A (f : nat -> option A) i v j, (j = i /\ put f i v j = v) \/ (j <> i /\ put f i v j = f j).
Proof. intros. destruct (Nat.eq_dec j i) as [->|N]; [left; split; auto; apply put_same|right; split; auto; apply put_other; auto]. Qed.

Lemma f2_length : forall A B (P : A -> B -> Prop) l m, Forall2 P l m -> length l = length m.
Proof. intros A B P l m F. induction F; simpl; auto. Qed.

(** ** The relation *)
Record sim (s : ast) (Q : attrs) (L : nat -> list nat) : Prop := mkSim {
  sm_nel : as_nel s = q_nel Q;
  sm_nat : as_nat s = q_nat Q;
  sm_at : forall a, as_at s a = q_at Q a;
  sm_el : forall e, as_el s e = option_map (fun y => mkEl (q_doc y) (q_ro y) (q_quirks y) (hd_error (L e)) (q_cls y)) (q_el Q e);
  sm_ln : forall e y, q_el Q e = Some y -> Forall2 (fun c n => as_ln s c = Some n) (L e) (q_ents y);
  sm_cyc : forall e, cyc (as_ring s) (L e);
  sm_cells : forall e c, In c (L e) -> c < as_nln s;
  sm_disj : forall e e' c, In c (L e) -> In c (L e') -> e = e';
  sm_none : forall e, q_el Q e = None -> L e = []
}.

Definition attr_ok (x : attr) : Prop := a_kids x = [] \/ exists v, a_kids x = [v] /\ a_type x = STRING.
Record good (k : nat) (Q : attrs) : Prop := mkGood {
  gd_eb : forall e y, q_el Q e = Some y -> e < q_nel Q;
  gd_ab : forall a x, q_at Q a = Some x -> a < q_nat Q;
  gd_ok : forall a x, q_at Q a = Some x -> attr_ok x;
  gd_ref : forall a x, q_at Q a = Some x -> (a_ref x <= N.of_nat k)%N;
  gd_held : forall a x, q_at Q a = Some x -> a_parent x = None -> (0 < a_ref x)%N;
  gd_par : forall a x e, q_at Q a = Some x -> a_parent x = Some e -> exists y, q_el Q e = Some y /\ In a (map l_attr (q_ents y));
  gd_ent : forall e y n, q_el Q e = Some y -> In n (q_ents y) ->
     exists x, q_at Q (l_attr n) = Some x /\ a_parent x = Some e /\ a_local x = l_name n;
  gd_nd : forall e y, q_el Q e = Some y -> NoDup (map l_attr (q_ents y));
  gd_len : forall e y, q_el Q e = Some y -> length (q_ents y) <= k
}.

Definition repl (L : nat -> list nat) (e : nat) (l : list nat) : nat -> list nat := fun j => if Nat.eqb j e then l else L j.
Lemma repl_same : forall L e l, repl L e l e = l.
Proof. intros. unfold repl. rewrite Nat.eqb_refl. auto. Qed.
Lemma repl_other : forall L e l j, j <> e -> repl L e l j = L j.
Proof. intros. unfold repl. apply Nat.eqb_neq in H. rewrite H. auto. Qed.

Lemma sim_ext : forall s Q Q' L, sim s Q L -> q_nel Q' = q_nel Q -> q_nat Q' = q_nat Q ->
  (forall e, q_el Q' e = q_el Q e) -> (forall a, q_at Q' a = q_at Q a) -> sim s Q' L.
Proof.
  intros s Q Q' L [A B C D E F G H I] N1 N2 E1 E2. constructor; auto; try congruence.
  - intros e. rewrite E1. auto.
  - intros e y Y. rewrite E1 in Y. auto.
  - intros e Y. rewrite E1 in Y. auto.
Qed.

(** ** Reading *)
Section Reads.
  Variables (s : ast) (Q : attrs) (L : nat -> list nat).
  Hypothesis SM : sim s Q L.

  Definition elem (e : nat) (y : qel) : el := mkEl (q_doc y) (q_ro y) (q_quirks y) (hd_error (L e)) (q_cls y).
  Lemma eload_ok : forall e y, q_el Q e = Some y -> eload e s = Ok (elem e y) s.
  Proof. intros e y H. unfold eload. rewrite (sm_el _ _ _ SM), H. reflexivity. Qed.
  Lemma aload_ok : forall a x, q_at Q a = Some x -> aload a s = Ok x s.
  Proof. intros a x H. unfold aload. rewrite (sm_at _ _ _ SM), H. reflexivity. Qed.
  Lemma cells_length : forall e, length (L e) <= as_nln s.
  Proof. intros e. apply nodup_bound; [eapply cyc_nodup; apply (sm_cyc _ _ _ SM)|]. intros c. apply (sm_cells _ _ _ SM). Qed.

  Lemma on_ring_load : forall c x, as_ring s c = Some x -> on_ring (rload (Some c)) s = Ok x s.
  Proof. intros c x H. unfold on_ring, rload. rewrite H. destruct s; reflexivity. Qed.

  (** *** Lookups *)
  Lemma find_run : forall ns k h t fuel c l2 n m2 l1, h :: t = l1 ++ c :: l2 -> cyc (as_ring s) (h :: t) ->
    Forall2 (fun c n => as_ln s c = Some n) (c :: l2) (n :: m2) -> length (c :: l2) <= fuel ->
    (entry ns k (n :: m2) = None -> find_loop fuel h ns k c s = Ok None s) /\
    (forall z, entry ns k (n :: m2) = Some z -> exists l3 d l4 m3 m4, c :: l2 = l3 ++ d :: l4 /\ n :: m2 = m3 ++ z :: m4 /\ length l3 = length m3 /\
       find_loop fuel h ns k c s = Ok (Some d) s).
  Proof.
    intros ns k h t fuel. induction fuel as [|f IH]; intros c l2 n m2 l1 E C F LF; [simpl in LF; lia|].
    inversion F as [|? ? ? ? Hc F']; subst. unfold entry in *. cbn [find find_loop]. unfold lload at 1 2. unfold bind at 1. rewrite Hc.
    change (lmatches ns k n) with (wanted ns k n). destruct (wanted ns k n) eqn:W.
    - split; [discriminate|]. intros z Z. inversion Z; subst z. exists [], c, l2, [], m2. unfold bind. rewrite Hc. 
      change (lmatches ns k n) with (wanted ns k n). rewrite W. auto.
    - destruct (cyc_next _ _ _ _ _ _ E C) as (x & X1 & X2).
      assert (ST : forall (g : cell -> M ast (option nat)), bind (on_ring (rload (Some c))) g s = g x s)
        by (intros g; apply rbind_ok; apply on_ring_load; auto).
      unfold bind at 2. rewrite Hc. change (lmatches ns k n) with (wanted ns k n). rewrite W. rewrite ST, X2.
      destruct l2 as [|d l2].
      + inversion F'; subst. cbn [hd find]. rewrite Nat.eqb_refl. split; auto. discriminate.
      + inversion F' as [|? n2 ? m2' Hd F'']; subst. cbn [hd].
        assert (NE : d <> h). { intros ->. assert (N : NoDup (h :: t)) by (eapply cyc_nodup; eauto). rewrite E in N.
          destruct l1 as [|h' l1]; simpl in E, N; inversion E; subst.
          - inversion N as [|? ? NI _]; subst. apply NI. left; auto.
          - inversion N as [|? ? NI _]; subst. apply NI. rewrite in_app_iff. simpl; auto. }
        apply Nat.eqb_neq in NE. rewrite NE.
        destruct (IH d l2 n2 m2' (l1 ++ [c])) as [I1 I2]; auto. { rewrite <- app_assoc. auto. } { simpl in *; lia. }
        split; auto. intros z Z. destruct (I2 z Z) as (l3 & d' & l4 & m3 & m4 & P1 & P2 & P3 & P4).
        exists (c :: l3), d', l4, (n :: m3), m4. rewrite P1, P2. simpl. auto.
  Qed.

  Lemma find_ok : forall e y ns k, q_el Q e = Some y ->
    (entry ns k (q_ents y) = None -> find_by_name (hd_error (L e)) ns k s = Ok None s) /\
    (forall z, entry ns k (q_ents y) = Some z -> exists l1 c l2 m1 m2, L e = l1 ++ c :: l2 /\ q_ents y = m1 ++ z :: m2 /\ length l1 = length m1 /\
       as_ln s c = Some z /\ find_by_name (hd_error (L e)) ns k s = Ok (Some c) s).
  Proof.
    intros e y ns k H. pose proof (sm_ln _ _ _ SM e y H) as F. pose proof (sm_cyc _ _ _ SM e) as C. pose proof (cells_length e) as LN.
    destruct (L e) as [|h t]; [inversion F; subst; cbn; split; [auto|discriminate]|]. inversion F as [|? n ? m Hh F' E1 E2].
    rewrite <- E2 in *. cbn [hd_error find_by_name].
    destruct (find_run ns k h t (S (as_nln s)) h t n m [] eq_refl C F) as [A B]. { simpl in *; lia. }
    split; auto. intros z Z. destruct (B z Z) as (l3 & d & l4 & m3 & m4 & P1 & P2 & P3 & P4). exists l3, d, l4, m3, m4.
    split; auto. split; auto. split; auto. split; auto. rewrite P1, P2 in F. clear - F P3.
    revert m3 P3 F. induction l3; intros m3 P3 F; destruct m3; simpl in *; try discriminate; inversion F; subst; auto.
    eapply IHl3; eauto.
  Qed.

  (** *** Positions *)
  Lemma length_run : forall h t fuel c l2 l1 (n : N), h :: t = l1 ++ c :: l2 -> cyc (as_ring s) (h :: t) -> length (c :: l2) <= fuel ->
    (n + N.of_nat (length (c :: l2)) < 4294967296)%N -> length_loop fuel h c n s = Ok (n + N.of_nat (length (c :: l2)))%N s.
  Proof.
    intros h t fuel. induction fuel as [|f IH]; intros c l2 l1 n E C LF B; [simpl in LF; lia|]. cbn [length_loop].
    destruct (cyc_next _ _ _ _ _ _ E C) as (x & X1 & X2). step (on_ring_load _ _ X1). rewrite X2.
    assert (U : u32 (n + 1) = (n + 1)%N). { unfold u32. apply N.mod_small. simpl length in B. lia. } rewrite U.
    destruct l2 as [|d l2].
    - cbn [hd]. rewrite Nat.eqb_refl. reflexivity.
    - cbn [hd]. assert (NE : d <> h). { intros ->. assert (N : NoDup (h :: t)) by (eapply cyc_nodup; eauto). rewrite E in N.
        destruct l1 as [|h' l1]; simpl in E, N; inversion E; subst.
        - inversion N as [|? ? NI _]; subst. apply NI. left; auto.
        - inversion N as [|? ? NI _]; subst. apply NI. rewrite in_app_iff. simpl; auto. }
      apply Nat.eqb_neq in NE. rewrite NE. rewrite (IH d l2 (l1 ++ [c]) (n + 1)%N); auto.
      + f_equal. simpl length. lia.
      + rewrite <- app_assoc. auto.
      + simpl in *; lia.
      + simpl length in *. lia.
  Qed.
  Lemma list_length_ok : forall e y, q_el Q e = Some y -> (N.of_nat (length (q_ents y)) < 4294967296)%N ->
    list_length (hd_error (L e)) s = Ok (N.of_nat (length (q_ents y))) s.
  Proof.
    intros e y H B. pose proof (sm_ln _ _ _ SM e y H) as F. pose proof (sm_cyc _ _ _ SM e) as C. pose proof (cells_length e) as LN.
    rewrite <- (f2_length _ _ _ _ _ F) in *. destruct (L e) as [|h t]; [reflexivity|]. cbn [hd_error list_length].
    rewrite (length_run h t (S (as_nln s)) h t [] 0%N); auto; simpl in *; lia.
  Qed.

  Lemma index_run : forall h t fuel c l2 l1 (i : N), h :: t = l1 ++ c :: l2 -> cyc (as_ring s) (h :: t) -> length (c :: l2) <= fuel ->
    (N.of_nat (length (c :: l2)) < 4294967296)%N -> (i < 4294967296)%N -> (i = 0 \/ 1 <= i)%N ->
    index_loop fuel h c i s = Ok (if (i =? 0)%N then None else nth_error (c :: l2) (N.to_nat (i - 1))) s.
  Proof.
    intros h t fuel. induction fuel as [|f IH]; intros c l2 l1 i E C LF B BI _; [simpl in LF; lia|]. cbn [index_loop].
    destruct (cyc_next _ _ _ _ _ _ E C) as (x & X1 & X2).
    assert (U : u32 (i + 4294967295) = if (i =? 0)%N then 4294967295%N else (i - 1)%N).
    { unfold u32. destruct (i =? 0)%N eqn:Z; [assert (i = 0)%N by lia; subst; reflexivity|].
      replace (i + 4294967295)%N with ((i - 1) + 1 * 4294967296)%N by lia. rewrite N.mod_add by lia. apply N.mod_small. lia. }
    rewrite U. destruct (N.eq_dec i 1) as [->|N1]; [reflexivity|].
    assert (Z0 : ((if (i =? 0)%N then 4294967295%N else (i - 1)%N) =? 0)%N = false) by (destruct (i =? 0)%N eqn:Z; lia). rewrite Z0.
    step (on_ring_load _ _ X1). rewrite X2.
    destruct l2 as [|d l2].
    - cbn [hd]. rewrite Nat.eqb_refl. destruct (i =? 0)%N eqn:Z; auto. assert (P : exists j, N.to_nat (i - 1) = S j) by (exists (N.to_nat (i - 2)); lia).
      destruct P as [j ->]. cbn [nth_error]. destruct j; reflexivity.
    - cbn [hd]. assert (NE : d <> h). { intros ->. assert (N : NoDup (h :: t)) by (eapply cyc_nodup; eauto). rewrite E in N.
        destruct l1 as [|h' l1]; simpl in E, N; inversion E; subst.
        - inversion N as [|? ? NI _]; subst. apply NI. left; auto.
        - inversion N as [|? ? NI _]; subst. apply NI. rewrite in_app_iff. simpl; auto. }
      apply Nat.eqb_neq in NE. rewrite NE.
      rewrite (IH d l2 (l1 ++ [c])); auto; try (simpl length in *; lia).
      2:{ rewrite <- app_assoc. auto. } 2:{ destruct (i =? 0)%N; lia. }
      f_equal. destruct (i =? 0)%N eqn:Z.
      + change (4294967295 =? 0)%N with false. cbn [nth_error]. apply nth_error_None. simpl length in *. lia.
      + assert (Z1 : (i - 1 =? 0)%N = false) by lia. rewrite Z1. assert (P : N.to_nat (i - 1) = S (N.to_nat (i - 1 - 1))) by lia. rewrite P. reflexivity.
  Qed.

  Lemma get_by_index_ok : forall e y i, q_el Q e = Some y -> (N.of_nat (length (q_ents y)) < 4294967296)%N -> (i < 4294967296)%N ->
    exists r, get_by_index (hd_error (L e)) (u32 (i + 1)) s = Ok r s /\
    match (if (i <? N.of_nat (length (q_ents y)))%N then nth_error (q_ents y) (N.to_nat i) else None) with
    | None => r = None
    | Some n => exists c, r = Some c /\ as_ln s c = Some n
    end.
  Proof.
    intros e y i H B BI. pose proof (sm_ln _ _ _ SM e y H) as F. pose proof (sm_cyc _ _ _ SM e) as C. pose proof (cells_length e) as LN.
    assert (NTH : forall j, match nth_error (q_ents y) j with None => nth_error (L e) j = None
                            | Some n => exists c, nth_error (L e) j = Some c /\ as_ln s c = Some n end).
    { clear - F. intros j. revert j. induction F; intros [|j]; simpl; eauto. apply IHF. }
    rewrite <- (f2_length _ _ _ _ _ F) in *. destruct (L e) as [|h t] eqn:EL.
    { exists None. split; [reflexivity|]. simpl. destruct (i <? 0)%N eqn:Z; [lia|auto]. }
    exists (if (u32 (i + 1) =? 0)%N then None else nth_error (h :: t) (N.to_nat (u32 (i + 1) - 1))).
    split. { cbn [hd_error get_by_index]. apply (index_run h t (S (as_nln s)) h t []); auto; try (simpl in *; lia). unfold u32. apply N.mod_lt. lia. }
    destruct (N.eq_dec i 4294967295) as [->|NI].
    - change (u32 (4294967295 + 1)) with 0%N. cbn [N.eqb]. destruct (4294967295 <? N.of_nat (length (h :: t)))%N eqn:Z; [lia|auto].
    - assert (U : u32 (i + 1) = (i + 1)%N) by (unfold u32; apply N.mod_small; lia). rewrite U. assert (Z : (i + 1 =? 0)%N = false) by lia. rewrite Z.
      replace (i + 1 - 1)%N with i by lia. specialize (NTH (N.to_nat i)). destruct (i <? N.of_nat (length (h :: t)))%N eqn:LT.
      + destruct (nth_error (q_ents y) (N.to_nat i)); auto.
      + apply nth_error_None. lia.
  Qed.
End Reads.

(** ** Attributes alone *)
Lemma sim_at_upd : forall s Q L a v, sim s Q L -> sim (with_at (put (as_at s) a v) s) (put_at Q a v) L.
Proof.
  intros s Q L a v [A B C D E F G H I]. constructor; auto. intros b. cbn. unfold put. destruct (Nat.eqb b a); auto.
Qed.
Lemma aupd_ok : forall s Q L a x f, sim s Q L -> q_at Q a = Some x ->
  exists s', aupd a f s = Ok tt s' /\ sim s' (put_at Q a (Some (f x))) L /\ as_ln s' = as_ln s /\ as_ring s' = as_ring s /\ as_nln s' = as_nln s.
Proof.
  intros s Q L a x f SM H. unfold aupd. rewrite (sm_at _ _ _ SM), H. eexists. split; [reflexivity|]. split; [apply sim_at_upd; auto|]. auto.
Qed.

Lemma set_type_id : forall x t, a_type x = t -> set_type t x = x.
Proof. intros [] t <-. reflexivity. Qed.
Lemma put_at_id : forall Q a x, q_at Q a = Some x -> forall b, q_at (put_at Q a (Some x)) b = q_at Q b.
Proof. intros Q a x H b. cbn. unfold put. destruct (Nat.eqb b a) eqn:E; auto. apply Nat.eqb_eq in E. subst. auto. Qed.

Lemma get_value_ok : forall s Q L a x, sim s Q L -> q_at Q a = Some x -> attr_ok x ->
  exists s', attr_get_value a s = Ok (value x) s' /\ sim s' Q L /\ as_ln s' = as_ln s /\ as_ring s' = as_ring s /\ as_nln s' = as_nln s.
Proof.
  intros s Q L a x SM H OK. unfold attr_get_value, value. step (aload_ok s Q L SM a x H).
  assert (SAME : forall t, a_type x = t -> exists s', aupd a (set_type t) s = Ok tt s' /\ sim s' Q L /\ as_ln s' = as_ln s /\ as_ring s' = as_ring s /\ as_nln s' = as_nln s).
  { intros t T. destruct (aupd_ok s Q L a x (set_type t) SM H) as (s' & U & S' & R). exists s'. split; auto. split; auto.
    rewrite (set_type_id _ _ T) in S'. eapply sim_ext; [exact S'|..]; auto. intros b. symmetry. apply put_at_id; auto. }
  destruct OK as [K|(v & K & T)]; rewrite K.
  - destruct (SAME (a_type x) eq_refl) as (s' & U & S' & R). exists s'. split; auto.
    assert (TT : match a_type x with UNSET => a_type x | _ => a_type x end = a_type x) by (destruct (a_type x); auto).
    destruct (a_type x) eqn:T; step U; reflexivity.
  - destruct v as [b|].
    + exists s. split; [|auto]. unfold kids_value. simpl. rewrite app_nil_r. reflexivity.
    + rewrite T. destruct (SAME STRING T) as (s' & U & S' & R). exists s'. split; auto. step U. reflexivity.
Qed.

Definition owned_el (Q : attrs) (x : attr) : Prop := exists e y, a_parent x = Some e /\ q_el Q e = Some y.
Lemma set_value_ok : forall s Q L a x v, sim s Q L -> q_at Q a = Some x -> owned_el Q x ->
  match writes x v with
  | inl x' => exists s', attr_set_value a v s = Ok tt s' /\ sim s' (put_at Q a (Some x')) L /\ as_ln s' = as_ln s /\ as_ring s' = as_ring s /\ as_nln s' = as_nln s
  | inr e => exists s', attr_set_value a v s = Exc e s' /\ sim s' Q L
  end.
Proof.
  intros s Q L a x v SM H (e & y & P & Y). unfold writes, attr_set_value. step (aload_ok s Q L SM a x H).
  destruct (a_ro x); [exists s; auto|].
  assert (GO : forall t, t = match a_type x with UNSET => STRING | t => t end -> t = STRING ->
    exists s', bind (aupd a (set_type t)) (fun _ => if negb (atype_eqb t STRING) then raise ATTR_WRONG_TYPE_ERR
       else match a_parent x with None => stuck NullDeref | Some e => eload e ;;; aupd a (set_kids [v]) end) s = Ok tt s' /\
     sim s' (put_at Q a (Some (set_kids [v] (set_type STRING x)))) L /\ as_ln s' = as_ln s /\ as_ring s' = as_ring s /\ as_nln s' = as_nln s).
  { intros t _ ->. destruct (aupd_ok s Q L a x (set_type STRING) SM H) as (s1 & U & S1 & R1 & R2 & R3). step U. cbn [atype_eqb negb]. rewrite P.
    step (eload_ok s1 _ _ S1 e y Y).
    destruct (aupd_ok s1 _ _ a (set_type STRING x) (set_kids [v]) S1) as (s2 & U2 & S2 & T1 & T2 & T3). { cbn. apply put_same. }
    exists s2. split; auto. split; [|repeat split; congruence]. eapply sim_ext; [exact S2|..]; auto. intros b. cbn. unfold put. destruct (Nat.eqb b a); auto. }
  assert (NO : forall t, a_type x = t -> t <> UNSET -> t <> STRING -> exists s', bind (aupd a (set_type t)) (fun _ => if negb (atype_eqb t STRING) then raise ATTR_WRONG_TYPE_ERR
       else match a_parent x with None => stuck NullDeref | Some e => eload e ;;; aupd a (set_kids [v]) end) s = Exc ATTR_WRONG_TYPE_ERR s' /\ sim s' Q L).
  { intros t T N1 N2. destruct (aupd_ok s Q L a x (set_type t) SM H) as (s1 & U & S1 & _). exists s1. split.
    - step U. destruct t; try congruence; reflexivity.
    - rewrite (set_type_id _ _ T) in S1. eapply sim_ext; [exact S1|..]; auto. intros b. symmetry. apply put_at_id; auto. }
  destruct (a_type x) eqn:T; try (apply GO; reflexivity); apply NO; congruence.
Qed.

Lemma typed_ok : forall s Q L a x (t : atype) (f : attr -> attr) (same : attr -> bool), sim s Q L -> q_at Q a = Some x -> t <> UNSET ->
  (forall z, same x = true -> f (set_type z x) = set_type z x) ->
  let t' := match a_type x with UNSET => t | t => t end in
  let code := bind (aupd a (set_type t')) (fun _ => if negb (atype_eqb t' t) then raise ATTR_WRONG_TYPE_ERR
               else if same x then ret tt else aupd a f) in
  match types t f x with
  | inl x' => exists s', code s = Ok tt s' /\ sim s' (put_at Q a (Some x')) L
  | inr e => exists s', code s = Exc e s' /\ sim s' Q L
  end.
Proof.
  intros s Q L a x t f same SM H NU SAME t' code. unfold types, code.
  destruct (aupd_ok s Q L a x (set_type t') SM H) as (s1 & U & S1 & _).
  assert (YES : t' = t -> exists s', bind (aupd a (set_type t')) (fun _ => if negb (atype_eqb t' t) then raise ATTR_WRONG_TYPE_ERR
               else if same x then ret tt else aupd a f) s = Ok tt s' /\ sim s' (put_at Q a (Some (f (set_type t x)))) L).
  { intros ->. assert (E : atype_eqb t t = true) by (destruct t; auto). rewrite E. cbn [negb]. destruct (same x) eqn:SX.
    - exists s1. split; [step U; reflexivity|]. rewrite SAME by auto. exact S1.
    - destruct (aupd_ok s1 _ _ a (set_type t x) f S1) as (s2 & U2 & S2 & _). { cbn. apply put_same. } exists s2. split; [step U; exact U2|].
      eapply sim_ext; [exact S2|..]; auto. intros b. cbn. unfold put. destruct (Nat.eqb b a); auto. }
  destruct (a_type x) eqn:T; [apply YES; reflexivity|..];
    (unfold t' in *; destruct (atype_eqb _ t) eqn:E;
     [assert (ET : a_type x = t) by (rewrite T; destruct t; simpl in E; congruence);
      rewrite (set_type_id x t ET) in YES; apply YES; congruence
     |exists s1; split; [step U; reflexivity|];
      rewrite (set_type_id _ _ T) in S1; eapply sim_ext; [exact S1|..]; auto; intros b; symmetry; apply put_at_id; auto]).
Qed.

(** ** The element and its list *)
Definition qents (y : qel) (l : list lnode) : qel := mkQel (q_doc y) (q_ro y) (q_quirks y) l (q_cls y).
Definition qcls (y : qel) (c : list bytes) : qel := mkQel (q_doc y) (q_ro y) (q_quirks y) (q_ents y) c.

Lemma cls_ok : forall s Q L e y c, sim s Q L -> q_el Q e = Some y ->
  exists s', eupd e (set_eclasses c) s = Ok tt s' /\ sim s' (put_el Q e (qcls y c)) L /\
    as_ln s' = as_ln s /\ as_ring s' = as_ring s /\ as_nln s' = as_nln s.
Proof.
  intros s Q L e y c SM H. unfold eupd. rewrite (sm_el _ _ _ SM), H. cbn [option_map]. eexists. split; [reflexivity|]. split; [|auto].
  destruct SM as [A B C D E F G I J]. constructor; auto; cbn.
  - intros e'. destruct (put_cases _ (as_el s) e (Some (set_eclasses c (elem L e y))) e') as [[-> P]|[N P]].
    + unfold elem in P. rewrite P, put_same. reflexivity.
    + unfold elem in P. rewrite P, put_other by auto. auto.
  - intros e' y'. destruct (put_cases _ (q_el Q) e (Some (qcls y c)) e') as [[-> P]|[N P]]; rewrite P; intros Z; [inversion Z; subst; cbn|]; auto.
  - intros e'. destruct (put_cases _ (q_el Q) e (Some (qcls y c)) e') as [[-> P]|[N P]]; rewrite P; intros Z; [discriminate|auto].
Qed.

Lemma f2_split : forall A B (P : A -> B -> Prop) l1 c l2 m1 n m2, length l1 = length m1 -> Forall2 P (l1 ++ c :: l2) (m1 ++ n :: m2) ->
  Forall2 P (l1 ++ l2) (m1 ++ m2) /\ P c n.
Proof.
  intros A B P l1. induction l1; intros c l2 [|m m1] n m2 E F; simpl in *; try discriminate; inversion F; subst; auto.
  destruct (IHl1 c l2 m1 n m2) as [X Y]; auto.
Qed.

(** The list of one element is cut at [c]; the head has been set already. *)
Lemma sim_cut : forall s Q L e y l1 c l2 m1 n m2 r h, sim s Q L -> q_el Q e = Some y -> L e = l1 ++ c :: l2 -> q_ents y = m1 ++ n :: m2 ->
  length l1 = length m1 -> list_del c (as_ring s) = Ok tt r -> cyc r (l1 ++ l2) -> (forall j, ~ In j (l1 ++ c :: l2) -> r j = as_ring s j) ->
  h = hd_error (l1 ++ l2) ->
  sim (mkAst (put (as_el s) e (Some (set_head h (elem L e y)))) (as_at s) (as_ln s) r (as_nel s) (as_nat s) (as_nln s))
      (put_el Q e (qents y (m1 ++ m2))) (repl L e (l1 ++ l2)) /\
  (forall e', ~ In c (repl L e (l1 ++ l2) e')).
Proof.
  intros s Q L e y l1 c l2 m1 n m2 r h SM H EL EN LN D CY FR ->.
  pose proof (cyc_nodup _ _ (sm_cyc _ _ _ SM e)) as ND. rewrite EL in ND.
  assert (SUB : forall j, In j (l1 ++ l2) -> In j (L e)) by (intros j I; rewrite EL; apply in_app_iff in I as [I|I]; apply in_app_iff; simpl; auto).
  split.
  - destruct SM as [A B C D' E F G I J]. constructor; auto; cbn.
    + intros e'. destruct (put_cases _ (as_el s) e (Some (set_head (hd_error (l1 ++ l2)) (elem L e y))) e') as [[-> P]|[N P]]; rewrite P.
      * rewrite put_same, repl_same. reflexivity.
      * rewrite put_other, repl_other by auto. auto.
    + intros e' y'. destruct (put_cases _ (q_el Q) e (Some (qents y (m1 ++ m2))) e') as [[-> P]|[N P]]; rewrite P; intros Z.
      * inversion Z; subst; cbn. rewrite repl_same. specialize (E e y H). rewrite EL, EN in E. apply (f2_split _ _ _ _ _ _ _ _ _ LN E).
      * rewrite repl_other by auto. auto.
    + intros e'. destruct (Nat.eq_dec e' e) as [->|N]; [rewrite repl_same; auto|]. rewrite repl_other by auto.
      eapply cyc_frame; [apply F|]. intros j I1. apply FR. rewrite <- EL. intros I2. apply N. eapply I; eauto.
    + intros e' j. destruct (Nat.eq_dec e' e) as [->|N]; [rewrite repl_same|rewrite repl_other by auto]; eauto.
    + intros e1 e2 j. destruct (Nat.eq_dec e1 e) as [->|N1]; destruct (Nat.eq_dec e2 e) as [->|N2];
        rewrite ?repl_same, ?repl_other by auto; eauto.
    + intros e'. destruct (put_cases _ (q_el Q) e (Some (qents y (m1 ++ m2))) e') as [[-> P]|[N P]]; rewrite P; intros Z; [discriminate|]. rewrite repl_other by auto. auto.
  - intros e' I'. destruct (Nat.eq_dec e' e) as [->|N]; [rewrite repl_same in I'; apply NoDup_remove_2 in ND; auto|].
    rewrite repl_other in I' by auto. apply N. eapply (sm_disj _ _ _ SM); [exact I'|]. rewrite EL. apply in_app_iff; simpl; auto.
Qed.

Lemma hd_same : forall A (l1 l2 : list A) c d, hd_error (l1 ++ c :: l2) = Some d -> d <> c -> hd_error (l1 ++ l2) = Some d.
Proof. intros A [|x l1] l2 c d E N; simpl in *; congruence. Qed.

Section Cut.
  Variables (s : ast) (Q : attrs) (L : nat -> list nat) (e : nat) (y : qel) (l1 : list nat) (c : nat) (l2 : list nat) (m1 : list lnode) (n : lnode) (m2 : list lnode).
  Hypotheses (SM : sim s Q L) (H : q_el Q e = Some y) (EL : L e = l1 ++ c :: l2) (EN : q_ents y = m1 ++ n :: m2) (LN : length l1 = length m1).
  Definition cut_post (m : M ast unit) : Prop :=
    exists s', m s = Ok tt s' /\ sim s' (put_el Q e (qents y (m1 ++ m2))) (repl L e (l1 ++ l2)) /\
      (forall e', ~ In c (repl L e (l1 ++ l2) e')) /\ as_ln s' = as_ln s /\ as_nln s' = as_nln s.

  Lemma put_id_sim : forall s' Q' L', sim s' Q' L' -> forall f, (forall j, f j = as_el s' j) -> sim (with_el f s') Q' L'.
  Proof. intros s' Q' L' [A B C D E F G I J] f EQ. constructor; auto. intros e'. cbn. rewrite EQ. auto. Qed.

  Lemma del_cut : l1 <> [] -> cut_post (on_ring (list_del c)).
  Proof.
    intros NE. pose proof (sm_cyc _ _ _ SM e) as CY. rewrite EL in CY. destruct (cyc_del _ _ _ _ CY) as (r & D & C' & FR).
    unfold cut_post, on_ring. rewrite D. eexists. split; [reflexivity|].
    destruct (sim_cut s Q L e y l1 c l2 m1 n m2 r (hd_error (l1 ++ l2)) SM H EL EN LN D C' FR eq_refl) as [S1 S2].
    split; [|auto]. destruct S1 as [A B C D' E F G I J]. constructor; auto. intros e'. rewrite <- D'. cbn.
    destruct (put_cases _ (as_el s) e (Some (set_head (hd_error (l1 ++ l2)) (elem L e y))) e') as [[-> P]|[N P]]; rewrite P; auto.
    rewrite (sm_el _ _ _ SM), H. unfold elem, set_head. cbn. rewrite EL. destruct l1; [congruence|reflexivity].
  Qed.
  Lemma unlink_cut : cut_post (unlink e c).
  Proof.
    pose proof del_cut as DC. pose proof (sm_cyc _ _ _ SM e) as CY. unfold cut_post, unlink.
    step (eload_ok s Q L SM e y H). cbn [elem e_head].
    destruct l1 as [|h t] eqn:E1.
    - rewrite EL in *. simpl app in *. cbn [hd_error]. unfold opt_eqb at 1. rewrite Nat.eqb_refl.
      destruct (cyc_next (as_ring s) c l2 c l2 [] eq_refl CY) as (x & X1 & X2). cbn [andb]. 
      assert (ST : bind (bind (on_ring (rload (Some c))) (fun c0 => eupd e (set_head (if opt_eqb Nat.eqb (snd c0) (Some c) then None else snd c0))))
                     (fun _ => on_ring (list_del c)) s =
                   bind (eupd e (set_head (hd_error l2))) (fun _ => on_ring (list_del c)) s).
      { rewrite bind_assoc. step (on_ring_load s Q L SM c x X1). rewrite X2. destruct l2 as [|d l2']; cbn [hd hd_error opt_eqb].
        - rewrite Nat.eqb_refl. reflexivity.
        - assert (ND : Nat.eqb d c = false). { apply Nat.eqb_neq. intros ->. apply cyc_nodup in CY. inversion CY as [|? ? NI _]; subst. apply NI; left; auto. } rewrite ND. reflexivity. }
      rewrite ST. clear ST. destruct (cyc_del (as_ring s) [] c l2 CY) as (r & D & C' & FR).
      destruct (sim_cut s Q L e y [] c l2 m1 n m2 r (hd_error l2) SM H EL EN LN D C' FR eq_refl) as [S1 S2].
      eexists. split.
      + assert (U : eupd e (set_head (hd_error l2)) s = Ok tt (with_el (put (as_el s) e (Some (set_head (hd_error l2) (elem L e y)))) s)).
        { unfold eupd. rewrite (sm_el _ _ _ SM), H. reflexivity. }
        step U. unfold on_ring. cbn [with_el as_ring]. rewrite D. reflexivity.
      + split; [exact S1|]. auto.
    - rewrite EL. cbn [app hd_error]. assert (ND : opt_eqb Nat.eqb (Some h) (Some c) = false).
      { simpl. apply Nat.eqb_neq. intros ->. rewrite EL in CY. apply cyc_nodup in CY. inversion CY as [|? ? NI _]; subst. apply NI. apply in_app_iff; simpl; auto. }
      rewrite ND, bind_ret. destruct DC as (s' & P); [congruence|]. rewrite E1 in P. exists s'. exact P.
  Qed.
End Cut.

Lemma sim_lfree : forall s Q L c, sim s Q L -> (forall e, ~ In c (L e)) ->
  exists s', lfree c s = Ok tt s' /\ sim s' Q L /\ as_nln s' = as_nln s.
Proof.
  intros s Q L c SM N. unfold lfree. eexists. split; [reflexivity|]. split; [|auto]. destruct SM as [A B C D E F G I J]. constructor; auto; cbn.
  - intros e y H. specialize (E e y H). specialize (N e). revert E N. generalize (L e) (q_ents y). intros l m E. induction E; constructor; auto.
    + rewrite put_other; auto. intros ->. apply N; left; auto.
    + apply IHE. intros I'. apply N; right; auto.
  - intros e. eapply cyc_frame; [apply F|]. intros j I'. apply put_other. intros ->. eapply N; eauto.
Qed.

Lemma try_destroy_ok : forall s Q L a x, sim s Q L -> q_at Q a = Some x ->
  exists s', attr_try_destroy a s = Ok tt s' /\ sim s' (put_at Q a (unless_free x)) L /\ as_ln s' = as_ln s /\ as_nln s' = as_nln s.
Proof.
  intros s Q L a x SM H. unfold attr_try_destroy, unless_free. step (aload_ok s Q L SM a x H).
  assert (SAME : sim s (put_at Q a (Some x)) L). { eapply sim_ext; [exact SM|..]; auto. apply put_at_id; auto. }
  destruct (a_parent x); [exists s; auto|]. destruct (a_ref x =? 0)%N; [|exists s; auto].
  unfold attr_free. eexists. split; [reflexivity|]. split; [apply sim_at_upd; auto|auto].
Qed.

Lemma put_put_at : forall Q a v w b, q_at (put_at (put_at Q a v) a w) b = q_at (put_at Q a w) b.
Proof. intros. cbn. unfold put. destruct (Nat.eqb b a); auto. Qed.
Lemma sim_put_put : forall s Q L a v w, sim s (put_at (put_at Q a v) a w) L -> sim s (put_at Q a w) L.
Proof. intros. eapply sim_ext; [eassumption|..]; auto. intros b. symmetry. apply put_put_at. Qed.

Lemma node_destroy_ok : forall s Q L e y c n x, sim s Q L -> q_el Q e = Some y -> as_ln s c = Some n -> (forall e', ~ In c (L e')) ->
  q_at Q (l_attr n) = Some x -> a_parent x = Some e ->
  exists s', node_destroy c s = Ok tt s' /\
    sim s' (put_at (put_el Q e (qcls y (if is_class (l_ns n) (l_name n) then [] else q_cls y))) (l_attr n) (unless_free (set_aparent None x))) L /\
    as_nln s' = as_nln s.
Proof.
  intros s Q L e y c n x SM H LC NI X PX. unfold node_destroy.
  assert (LL : lload c s = Ok n s) by (unfold lload; rewrite LC; auto). step LL. step (aload_ok s Q L SM _ x X).
  assert (P1 : exists s1, (if is_class (l_ns n) (l_name n) then match a_parent x with None => stuck NullDeref | Some e => eupd e (set_eclasses []) end else ret tt) s = Ok tt s1 /\
     sim s1 (put_el Q e (qcls y (if is_class (l_ns n) (l_name n) then [] else q_cls y))) L /\ as_nln s1 = as_nln s).
  { destruct (is_class (l_ns n) (l_name n)).
    - rewrite PX. destruct (cls_ok s Q L e y [] SM H) as (s1 & U & S1 & _ & _ & N1). exists s1; auto.
    - exists s. split; auto. split; auto. eapply sim_ext; [exact SM|..]; auto. intros e'. cbn.
      destruct (put_cases _ (q_el Q) e (Some (qcls y (q_cls y))) e') as [[-> P]|[N P]]; rewrite P; auto. rewrite H. destruct y; reflexivity. }
  destruct P1 as (s1 & U1 & S1 & N1). step U1.
  destruct (aupd_ok s1 _ _ (l_attr n) x (set_aparent None) S1 X) as (s2 & U2 & S2 & _ & _ & N2). step U2.
  destruct (try_destroy_ok s2 _ _ (l_attr n) (set_aparent None x) S2) as (s3 & U3 & S3 & _ & N3). { cbn. apply put_same. } step U3.
  apply sim_put_put in S3. destruct (sim_lfree s3 _ _ c S3 NI) as (s4 & U4 & S4 & N4). exists s4. rewrite U4. split; auto. split; auto. congruence.
Qed.

Lemma without_mid : forall m1 n m2, NoDup (map l_attr (m1 ++ n :: m2)) -> without_attr (l_attr n) (m1 ++ n :: m2) = m1 ++ m2.
Proof.
  intros m1 n m2 ND. unfold without_attr. rewrite filter_app. cbn [filter]. rewrite Nat.eqb_refl. cbn [negb].
  rewrite map_app in ND. cbn [map] in ND. apply NoDup_remove_2 in ND.
  assert (ALL : forall l, (forall z, In z l -> In (l_attr z) (map l_attr m1 ++ map l_attr m2)) -> filter (fun z => negb (Nat.eqb (l_attr z) (l_attr n))) l = l).
  { induction l as [|z l IH]; intros A; simpl; auto. destruct (Nat.eqb (l_attr z) (l_attr n)) eqn:E; simpl.
    - apply Nat.eqb_eq in E. exfalso. apply ND. rewrite <- E. apply A; left; auto.
    - rewrite IH; auto. intros w W. apply A; right; auto. }
  rewrite !ALL; auto; intros z I; apply in_app_iff; [right|left]; apply in_map; auto.
Qed.

(** Cut and destroy: what [drop] says. *)
Lemma drop_ok : forall (m : M ast unit) s Q L e y l1 c l2 m1 n m2 x, sim s Q L -> q_el Q e = Some y -> q_ents y = m1 ++ n :: m2 ->
  NoDup (map l_attr (q_ents y)) -> as_ln s c = Some n -> q_at Q (l_attr n) = Some x -> a_parent x = Some e ->
  cut_post s Q L e y l1 c l2 m1 m2 m ->
  exists s1 s2, m s = Ok tt s1 /\ node_destroy c s1 = Ok tt s2 /\ sim s2 (drop Q e y n x) (repl L e (l1 ++ l2)) /\ as_nln s2 = as_nln s.
Proof.
  intros m s Q L e y l1 c l2 m1 n m2 x SM H EN ND LC X PX (s1 & U1 & S1 & NI & LL & NN).
  destruct (node_destroy_ok s1 _ _ e (qents y (m1 ++ m2)) c n x S1) as (s2 & U2 & S2 & N2); auto. { cbn. apply put_same. } { congruence. }
  exists s1, s2. split; auto. split; auto. split; [|congruence]. eapply sim_ext; [exact S2|..]; auto.
  intros e'. unfold drop. cbn. unfold put. destruct (Nat.eqb e' e); auto. unfold qcls, qents. cbn. rewrite EN, without_mid by (rewrite <- EN; auto). reflexivity.
Qed.

Lemma node_create_ok : forall s Q L e y a x ns k, sim s Q L -> q_el Q e = Some y -> q_at Q a = Some x -> attr_ok x ->
  exists s', node_create a e k ns s = Ok (as_nln s) s' /\
    sim s' (put_el Q e (qcls y (if is_class ns k then class_split (c_string (value x)) [] else q_cls y))) L /\
    as_ln s' (as_nln s) = Some (mkLnode a k ns) /\ as_ring s' (as_nln s) = Some (Some (as_nln s), Some (as_nln s)) /\ as_nln s' = S (as_nln s) /\
    (forall e', ~ In (as_nln s) (L e')).
Proof.
  intros s Q L e y a x ns k SM H X OK. unfold node_create. step (aload_ok s Q L SM a x X).
  assert (P1 : exists s1, (if is_class ns k then bind (attr_get_value a) (fun v => eupd e (set_eclasses (class_split (c_string v) []))) else ret tt) s = Ok tt s1 /\
     sim s1 (put_el Q e (qcls y (if is_class ns k then class_split (c_string (value x)) [] else q_cls y))) L /\ as_nln s1 = as_nln s).
  { destruct (is_class ns k).
    - destruct (get_value_ok s Q L a x SM X OK) as (s0 & U0 & S0 & _ & _ & N0). step U0.
      destruct (cls_ok s0 Q L e y (class_split (c_string (value x)) []) S0 H) as (s1 & U & S1 & _ & _ & N1). exists s1; split; auto. split; auto. congruence.
    - exists s. split; auto. split; auto. eapply sim_ext; [exact SM|..]; auto. intros e'. cbn.
      destruct (put_cases _ (q_el Q) e (Some (qcls y (q_cls y))) e') as [[-> P]|[N P]]; rewrite P; auto. rewrite H. destruct y; reflexivity. }
  destruct P1 as (s1 & U1 & S1 & N1). step U1. rewrite <- N1.
  assert (FRESH : forall e', ~ In (as_nln s1) (L e')) by (intros e' I; apply (sm_cells _ _ _ S1) in I; lia).
  eexists. split; [reflexivity|]. split; [|cbn; rewrite put_same; unfold rset; rewrite Nat.eqb_refl; auto].
  destruct S1 as [A B C D E F G I J]. constructor; auto; cbn [as_ln as_ring as_nln].
  - intros e' y' Y. specialize (E e' y' Y). specialize (FRESH e'). revert E FRESH. generalize (L e') (q_ents y'). intros l m E. induction E; constructor; auto.
    + rewrite put_other; auto. intros ->. apply FRESH; left; auto.
    + apply IHE. intros I'. apply FRESH; right; auto.
  - intros e'. eapply cyc_frame; [apply F|]. intros j I'. unfold rset. assert (NE : j <> as_nln s1) by (intros ->; eapply FRESH; eauto).
    apply Nat.eqb_neq in NE. rewrite NE. auto.
  - intros e' c I'. apply G in I'. lia.
Qed.

Lemma f2_snoc : forall A B (P : A -> B -> Prop) l m a b, Forall2 P l m -> P a b -> Forall2 P (l ++ [a]) (m ++ [b]).
Proof. intros A B P l m a b F. induction F; simpl; intros; constructor; auto. Qed.

Lemma link_ok : forall s Q L e y i n, sim s Q L -> q_el Q e = Some y -> as_ln s i = Some n -> as_ring s i = Some (Some i, Some i) ->
  i < as_nln s -> (forall e', ~ In i (L e')) ->
  exists s', link e i s = Ok tt s' /\ sim s' (put_el Q e (qents y (q_ents y ++ [n]))) (repl L e (L e ++ [i])) /\ as_nln s' = as_nln s.
Proof.
  intros s Q L e y i n SM H LI RI IB NI. unfold link. step (eload_ok s Q L SM e y H). cbn [elem e_head].
  assert (GO : forall r, cyc r (L e ++ [i]) -> (forall j, ~ In j (L e ++ [i]) -> r j = as_ring s j) -> forall f,
     (forall e', f e' = put (as_el s) e (Some (set_head (hd_error (L e ++ [i])) (elem L e y))) e') ->
     sim (mkAst f (as_at s) (as_ln s) r (as_nel s) (as_nat s) (as_nln s)) (put_el Q e (qents y (q_ents y ++ [n]))) (repl L e (L e ++ [i]))).
  { intros r CY FR f EF. destruct SM as [A B C D' E F G I J]. constructor; auto; cbn.
    + intros e'. rewrite EF. destruct (put_cases _ (as_el s) e (Some (set_head (hd_error (L e ++ [i])) (elem L e y))) e') as [[-> P]|[N P]]; rewrite P.
      * rewrite put_same, repl_same. reflexivity.
      * rewrite put_other, repl_other by auto. auto.
    + intros e' y'. destruct (put_cases _ (q_el Q) e (Some (qents y (q_ents y ++ [n]))) e') as [[-> P]|[N P]]; rewrite P; intros Z.
      * inversion Z; subst; cbn. rewrite repl_same. apply f2_snoc; auto.
      * rewrite repl_other by auto. auto.
    + intros e'. destruct (Nat.eq_dec e' e) as [->|N]; [rewrite repl_same; auto|]. rewrite repl_other by auto.
      eapply cyc_frame; [apply F|]. intros j I1. apply FR. intros I2. apply in_app_iff in I2 as [I2|[<-|[]]]; [apply N; eapply I; eauto|eapply NI; eauto].
    + intros e' j. destruct (Nat.eq_dec e' e) as [->|N]; [rewrite repl_same|rewrite repl_other by auto]; [|eauto].
      intros I1. apply in_app_iff in I1 as [I1|[<-|[]]]; eauto.
    + assert (CASE : forall e1 j, In j (repl L e (L e ++ [i]) e1) -> In j (L e1) \/ (e1 = e /\ j = i)).
      { intros e1 j. destruct (Nat.eq_dec e1 e) as [->|N1]; [rewrite repl_same|rewrite repl_other by auto; auto]. intros I1. apply in_app_iff in I1 as [I1|[<-|[]]]; auto. }
      intros e1 e2 j I1 I2. apply CASE in I1. apply CASE in I2. destruct I1 as [I1|[-> ->]]; destruct I2 as [I2|[-> J2]]; eauto; subst; exfalso; eapply NI; eauto.
    + intros e'. destruct (put_cases _ (q_el Q) e (Some (qents y (q_ents y ++ [n]))) e') as [[-> P]|[N P]]; rewrite P; intros Z; [discriminate|]. rewrite repl_other by auto. auto. }
  pose proof (sm_cyc _ _ _ SM e) as CY. destruct (L e) as [|h t] eqn:EL.
  - cbn [hd_error]. unfold eupd. rewrite (sm_el _ _ _ SM), H. cbn [option_map]. eexists. split; [reflexivity|]. split; [|auto].
    apply GO.
    + split; [constructor; [intros []|constructor]|]. simpl. split; [|auto]. split; exists (Some i, Some i); auto.
    + auto.
    + intros e'. unfold elem. rewrite EL. reflexivity.
  - cbn [hd_error]. pose proof (sm_ln _ _ _ SM e y H) as F. rewrite EL in F. assert (HH : exists nh, as_ln s h = Some nh) by (inversion F; eauto). destruct HH as [nh Hh].
    assert (LL : lload h s = Ok nh s) by (unfold lload; rewrite Hh; auto). step LL.
    destruct (cyc_append (as_ring s) h t i _ CY RI) as (r & D & C' & FR). { rewrite <- EL. apply NI. }
    unfold on_ring. rewrite D. eexists. split; [reflexivity|]. split; [|auto]. apply GO; auto.
    + intros j NJ. apply FR. intros [->|[->|I']]; apply NJ; simpl; auto; right; apply in_app_iff; simpl; auto.
    + intros e'. destruct (put_cases _ (as_el s) e (Some (set_head (hd_error ((h :: t) ++ [i])) (elem L e y))) e') as [[-> P]|[N P]]; rewrite P; auto.
      rewrite (sm_el _ _ _ SM), H. unfold elem. rewrite EL. reflexivity.
Qed.
