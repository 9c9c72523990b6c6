(** A collection on a root without children walks on into what follows the root. *)
From Coq Require Import List Arith NArith Bool Lia ZifyBool ZifyNat ZifyN.
From Verif Require Import Base HeapModel HeapSpec HeapInv HeapExec HeapTree HistModel TreeSpec StringModel WalkModel WalkSpec WalkProofs WalkLists WalkFinds.
Import ListNotations.
Local Open Scope dom_scope.

Section Stray.
  Variable s : st.
  Hypothesis L : linked s.
  Let h := s_heap s.
  Variables (ic : id -> bool) (root top : id) (a0 b0 : list id).
  Hypothesis TOP : parent_of h top = None.
  Hypothesis ORD : order h top (a0 ++ root :: b0).
  Variables (nr : node) (p0 y0 : id).
  Hypothesis HR : h root = Some nr.
  Hypothesis TR : n_type nr <> ATTRIBUTE.
  Hypothesis FR : n_first nr = None.
  Hypothesis PR : n_parent nr = Some p0.
  Hypothesis XR : n_next nr = Some y0.

  Lemma not_top : top <> root.
  Proof. intros E. pose proof TOP as TP. unfold parent_of in TP. rewrite E, HR in TP. cbn in TP. congruence. Qed.

  Lemma no_child : forall i n, h i = Some n -> n_type n <> ATTRIBUTE -> n_parent n <> Some root.
  Proof.
    intros i n H T P. destruct (linked_list _ L _ _ HR) as (l & (m & M & _ & _ & _ & IN) & _ & E & _). assert (l = []) by (destruct l; [auto|cbn in E; congruence]). subst l.
    specialize (IN i). apply IN. exists n. split; [exact H|]. auto.
  Qed.

  Lemma climb_out : forall i o, exits h top i o -> forall n l f, h i = Some n -> i <> root -> achain h (n_parent n) l -> length l + 1 < f ->
    match o with
    | Some y => exists j nj, climb_to f root i (n_parent n) s = Ok j s /\ j <> root /\ h j = Some nj /\ n_next nj = Some y
    | None => climb_to f root i (n_parent n) s = Bad NullDeref
    end.
  Proof.
    intros i o E. induction E as [i n p x H NA H0 H1|i n H NA H0 H1|i n p o H NA H1 H2 H3 E IHE];
      intros m l f Hm NT AC LF; assert (m = n) by (unfold h in *; congruence); subst m;
      (destruct f; [lia|]); cbn [climb_to]; (destruct (Nat.eqb_spec i root) as [X|_]; [congruence|]).
    - exists i, n. rewrite H0 in *. destruct (achain_some _ _ _ AC) as (np & l' & -> & HP & _).
      rewrite (bind_ok _ _ _ _ _ _ _ _ (deref_ok p s)). rewrite (bind_ok _ _ _ _ _ _ _ _ (load_ok _ _ _ HP)).
      destruct (oid_eqb (n_last np) (Some i)) eqn:EL; [|auto]. apply oid_eqb_eq in EL. apply (last_iff _ L _ _ _ _ H NA H0 HP) in EL. congruence.
    - rewrite H1 in *. destruct (achain_some _ _ _ AC) as (np & l' & -> & HP & _).
      rewrite (bind_ok _ _ _ _ _ _ _ _ (deref_ok top s)). rewrite (bind_ok _ _ _ _ _ _ _ _ (load_ok _ _ _ HP)).
      assert (EL : n_last np = Some i) by (apply (last_iff _ L _ _ _ _ H NA H1 HP); auto). rewrite EL, oid_eqb_refl.
      pose proof TOP as TP. unfold parent_of in TP. rewrite HP in TP. cbn in TP. rewrite TP. destruct f; [simpl in LF; lia|]. cbn [climb_to]. destruct (Nat.eqb_spec top root) as [X|_]; [destruct (not_top X)|]. reflexivity.
    - assert (PN : p <> root) by (intros ->; exact (no_child _ _ H NA H2)). rewrite H2 in *. destruct (achain_some _ _ _ AC) as (np & l' & -> & HP & AC').
      rewrite (bind_ok _ _ _ _ _ _ _ _ (deref_ok p s)). rewrite (bind_ok _ _ _ _ _ _ _ _ (load_ok _ _ _ HP)).
      assert (EL : n_last np = Some i) by (apply (last_iff _ L _ _ _ _ H NA H2 HP); auto). rewrite EL, oid_eqb_refl. apply (IHE np l' f); auto. simpl in LF; lia.
  Qed.

  Definition onward (x : id) (b : list id) : Prop := col_next root x s = match b with y :: _ => Ok (Some y) s | [] => Bad NullDeref end.

  Lemma next_out : forall x b, steps h top x (hd_error b) -> x <> root -> onward x b.
  Proof.
    intros x b (n & A & NA & S1) NT. unfold onward, col_next. rewrite (bind_ok _ _ _ _ _ _ _ _ (load_ok _ _ _ A)).
    destruct (n_first n). { destruct b; [discriminate|]. injection S1 as <-. reflexivity. }
    destruct (n_next n) as [y|] eqn:NX. { pose proof (exits_next _ _ _ _ _ _ S1 A NX) as Q. destruct b; [discriminate|]. injection Q as <-. reflexivity. }
    destruct (parent_chain _ L _ _ A) as (c & AC & LC). pose proof (climb_out _ _ S1 n c (fuel_of s) A NT AC) as Q.
    destruct b as [|y b]; cbn [hd_error] in Q.
    - unfold bind at 1. unfold with_fuel. rewrite Q by (unfold fuel_of; lia). reflexivity.
    - destruct Q as (j & nj & E & NJ & J1 & J2). { unfold fuel_of; lia. } rewrite (bind_ok _ _ _ _ _ _ _ _ (E : with_fuel _ s = _)). apply Nat.eqb_neq in NJ as ->.
      rewrite (bind_ok _ _ _ _ _ _ _ _ (load_ok _ _ _ J1)). rewrite J2. reflexivity.
  Qed.

  Lemma around : b0 <> [] /\ length (root :: b0) <= s_nxt s /\ (forall x, In x (root :: b0) -> live h x) /\ forall a x b, root :: b0 = a ++ x :: b -> onward x b.
  Proof.
    assert (LT : live h top) by (inversion ORD as [? ? ? (n & A & _)]; exists n; auto). destruct (linked_tree _ L top LT) as ([i ats ks] & R & E). cbn in E. subst i.
    pose proof (order_pre _ _ R _ ORD) as Q. pose proof (tr_nodup _ L _ R) as ND. pose proof (tr_size _ L _ R) as SZ. pose proof (tr_live _ _ R) as LV. rewrite <- Q in ND, SZ, LV.
    destruct a0 as [|t a1]. { cbn in Q. injection Q as Q _. exfalso. exact (not_top (eq_sym Q)). }
    cbn [app pre] in Q. injection Q as Q1 Q2. subst t. assert (NI : ~ In top (flat_map pre ks)). { rewrite <- Q2. cbn [app] in ND. inversion ND; auto. }
    assert (ST : forall a x b, flat_map pre ks = a ++ x :: b -> steps h top x (hd_error b)) by (intros a x b E; eapply pos_desc; eauto).
    assert (NB : b0 = y0 :: tl b0).
    { destruct (ST a1 root b0 (eq_sym Q2)) as (n & A & _ & S1). assert (n = nr) by congruence. subst n. rewrite FR in S1. pose proof (exits_next _ _ _ _ _ _ S1 HR XR) as Z. destruct b0; [discriminate|]. injection Z as ->. reflexivity. }
    split; [rewrite NB; discriminate|]. split. { rewrite app_length in SZ. unfold h in *. cbn [length] in *. lia. }
    split. { intros x I. apply LV. apply in_or_app. right. exact I. }
    intros a x b E. destruct a as [|z a]; cbn [app] in E; injection E as E1 E2.
    - subst x b. unfold onward, col_next. rewrite (bind_ok _ _ _ _ _ _ _ _ (load_ok _ _ _ HR)). rewrite FR, XR. rewrite NB. reflexivity.
    - subst z. apply next_out. { apply (ST (a1 ++ root :: a)). rewrite <- Q2, E2, <- app_assoc. reflexivity. }
      intros ->. apply NoDup_remove_2 in ND. apply ND. apply in_or_app. right. rewrite E2. apply in_or_app. right. left. reflexivity.
  Qed.

  Lemma length_out : forall b a f len, root :: b0 = a ++ b -> b <> [] -> length b <= f -> col_length_loop f ic root (hd_error b) len s = Bad NullDeref.
  Proof.
    destruct around as (_ & _ & LV & NX). induction b as [|x b IH]; intros a f len E NE F; [congruence|]. destruct f; [simpl in F; lia|]. cbn [col_length_loop hd_error].
    destruct (LV x) as (n & Hn). { rewrite E. apply in_or_app. right; left; auto. } rewrite (bind_ok _ _ _ _ _ _ _ _ (load_ok _ _ _ Hn)). pose proof (NX _ _ _ E) as Q. unfold onward in Q. destruct b as [|y b].
    - unfold bind. rewrite Q. reflexivity.
    - rewrite (bind_ok _ _ _ _ _ _ _ _ Q). apply (IH (a ++ [x])); [rewrite <- app_assoc; auto|discriminate|simpl in *; lia].
  Qed.

  Lemma stray_length : col_length ic root s = Bad NullDeref.
  Proof. destruct around as (_ & SZ & _). apply (length_out (root :: b0) [] (fuel_of s) 0%N); [auto|discriminate|unfold fuel_of; lia]. Qed.

  Lemma item_out : forall b a f idx count, root :: b0 = a ++ b -> b <> [] -> length b <= f ->
    (count + N.of_nat (length (filter (inb s ic) b)) < two32)%N -> (count <= idx)%N -> (idx + 1 < two32)%N ->
    col_item_loop f ic root idx (hd_error b) count s = match nth_error (filter (inb s ic) b) (N.to_nat (idx - count)) with Some x => Ok (Some x) s | None => Bad NullDeref end.
  Proof.
    destruct around as (_ & _ & LV & NX). induction b as [|x b IH]; intros a f idx count E NE F B C I; [congruence|]. destruct f; [simpl in F; lia|]. cbn [col_item_loop hd_error].
    destruct (LV x) as (n & Hn). { rewrite E. apply in_or_app. right; left; auto. } rewrite (bind_ok _ _ _ _ _ _ _ _ (load_ok _ _ _ Hn)).
    assert (SX : inb s ic x = element_node n && ic x) by (unfold inb, selb; unfold h in Hn; rewrite Hn; reflexivity). cbn [filter] in *. rewrite SX in *.
    assert (UI : u32 (idx + 1) = (idx + 1)%N) by (unfold u32, two32 in *; apply N.mod_small; auto). pose proof (NX _ _ _ E) as Q. unfold onward in Q.
    assert (GO : forall count', (count' + N.of_nat (length (filter (inb s ic) b)) < two32)%N -> (count' <= idx)%N ->
      (nx <- col_next root x ;; col_item_loop f ic root idx nx count') s = match nth_error (filter (inb s ic) b) (N.to_nat (idx - count')) with Some x => Ok (Some x) s | None => Bad NullDeref end).
    { intros count' B' C'. destruct b as [|y b]. { unfold bind. rewrite Q. cbn [filter]. destruct (N.to_nat (idx - count')); reflexivity. }
      rewrite (bind_ok _ _ _ _ _ _ _ _ Q). apply (IH (a ++ [x])); auto; [rewrite <- app_assoc; auto|discriminate|simpl in *; lia]. }
    destruct (element_node n && ic x).
    - cbn [length] in B. assert (UC : u32 (count + 1) = (count + 1)%N) by (unfold u32, two32 in *; apply N.mod_small; lia).
      cbv zeta. rewrite UI, UC. destruct (N.eqb_spec (count + 1) (idx + 1)) as [Z|Z]. { replace (N.to_nat (idx - count)) with 0 by lia. reflexivity. }
      rewrite GO by lia. replace (N.to_nat (idx - count)) with (S (N.to_nat (idx - (count + 1)))) by lia. reflexivity.
    - cbv zeta. rewrite UI. destruct (N.eqb_spec count (idx + 1)) as [Z|Z]; [lia|]. apply GO; auto.
  Qed.


  Hypothesis CT : counted s.
  Lemma stray_item : forall k index, (N.of_nat (length (root :: b0)) < two32)%N -> (index + 1 < two32)%N -> picks (fun i => type_of h i = Some ELEMENT /\ ic i = true) (root :: b0) k ->
    match nth_error k (N.to_nat index) with
    | Some x => exists s', col_item ic root index s = Ok (Some x) s' /\ answered s (Some x) s'
    | None => col_item ic root index s = Bad NullDeref
    end.
  Proof.
    intros k index LB I PK. destruct around as (_ & SZ & LV & _).
    assert (KE : k = filter (inb s ic) (root :: b0)).
    { apply (picks_filter _ (fun i => type_of h i = Some ELEMENT /\ ic i = true) (inb s ic)); auto.
      intros x X. destruct (LV _ X) as (n & H). unfold inb, selb, type_of. unfold h in *. rewrite H, andb_true_iff, element_iff. simpl. split; intros [Q1 Q2]; split; congruence. }
    assert (KL : length k <= length (root :: b0)). { rewrite KE. clear. induction (root :: b0) as [|a l IH]; cbn [filter length]; auto. destruct (inb s ic a); cbn [length]; lia. }
    assert (Q : with_fuel (fun f => col_item_loop f ic root index (Some root) 0) s = match nth_error k (N.to_nat index) with Some x => Ok (Some x) s | None => Bad NullDeref end).
    { unfold with_fuel. pose proof (item_out (root :: b0) [] (fuel_of s) index 0%N) as Q. rewrite <- KE, N.sub_0_r in Q. apply Q; auto; [discriminate|unfold fuel_of; lia|lia|lia]. }
    unfold col_item. destruct (nth_error k (N.to_nat index)) as [x|] eqn:NK.
    - rewrite (bind_ok _ _ _ _ _ _ _ _ Q). apply ref_opt_answered; auto. intros i X. injection X as <-. apply LV. apply nth_error_In in NK. rewrite KE in NK. apply filter_In in NK. tauto.
    - unfold bind. rewrite Q. reflexivity.
  Qed.
End Stray.

Lemma stray : forall s, linked s -> forall collected root n p y, s_heap s root = Some n -> n_type n = ELEMENT -> n_first n = None -> n_parent n = Some p -> n_next n = Some y ->
  forall top a b, parent_of (s_heap s) top = None -> order (s_heap s) top (a ++ root :: b) ->
  col_length collected root s = Bad NullDeref /\
  (counted s -> (N.of_nat (length (root :: b)) < two32)%N -> forall k, picks (fun i => type_of (s_heap s) i = Some ELEMENT /\ collected i = true) (root :: b) k -> forall index, (index + 1 < two32)%N ->
   match nth_error k (N.to_nat index) with
   | Some x => exists s', col_item collected root index s = Ok (Some x) s' /\ answered s (Some x) s'
   | None => col_item collected root index s = Bad NullDeref
   end).
Proof.
  intros s L ic root n p y H T F P X top a b TP O. assert (NA : n_type n <> ATTRIBUTE) by congruence. split.
  - eapply stray_length; eauto.
  - intros CT LB k PK index I. eapply stray_item; eauto.
Qed.
