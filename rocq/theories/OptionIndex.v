(** The index of an option. *)
From Coq Require Import List Arith NArith ZArith Bool Lia ZifyBool ZifyNat ZifyN.
From Verif Require Import Base HeapModel HeapSpec HeapInv HeapExec HeapTree HeapFrame HeapOps HeapLoops HistModel HistProofs TreeSpec TreeProofs TreeProofs3
  StringModel WalkModel WalkSpec WalkProofs WalkLists WalkFinds WalkReach ContentProofs ImportProofs HtmlModel HtmlSpec HtmlBase HtmlSelect HtmlTake HtmlRows HtmlTable HtmlInsert HtmlTables HtmlBodies
  CellModel CellSpec CellProofs CellReach OptionModel OptionSpec.
Import ListNotations.
Local Open Scope dom_scope.

Definition opt (h : heap) (i : id) : Prop := exists n, h i = Some n /\ has_tag true s_OPTION n.
Lemma opt_name : s_OPTION <> [] /\ s_OPTION <> [42%N].
Proof. split; discriminate. Qed.
Lemma opt_named : forall s l x n, names_elements s_OPTION (s_heap s) l -> In x l -> s_heap s x = Some n -> (opt (s_heap s) x <-> caseless_isequal (n_name n) (Some s_OPTION) = true).
Proof.
  intros s l x n NE I H. destruct opt_name as [N1 N2]. change (caseless_isequal (n_name n) (Some s_OPTION)) with (is_named n s_OPTION). split.
  - intros P. exact (part_is_named s s_OPTION x n N1 N2 H P).
  - intros E. destruct (is_named_some _ _ N1 E) as (b & B1 & B2). apply (named_part s s_OPTION x n N1 N2 H); auto. apply (NE x n b); auto.
Qed.

Lemma index_from_ok : forall s o b a c f m z, fwd (s_heap s) c (a ++ o :: b) -> ~ In o a -> names_elements s_OPTION (s_heap s) a -> picks (opt (s_heap s)) a m -> length a <= f ->
  (N.of_nat (length a) + z < two32)%N -> index_from f o c z s = Ok (Some (as_i32 (N.of_nat (length m) + z))) s.
Proof.
  intros s o b a. induction a as [|x a IH]; intros c f m z F NI NE P LF B; cbn [app] in F; inversion F as [|i n l H F']; subst.
  - inversion P; subst. destruct f; cbn [index_from]; rewrite Nat.eqb_refl; reflexivity.
  - cbn [length] in LF, B. destruct f as [|f]; [lia|]. cbn [index_from].
    assert (NX : Nat.eqb x o = false) by (apply Nat.eqb_neq; intros ->; apply NI; left; auto). rewrite NX. step (load_ok _ _ _ H).
    assert (NI' : ~ In o a) by (intros I; apply NI; right; auto). assert (NE' : names_elements s_OPTION (s_heap s) a) by (intros y; intros; eapply (NE y); eauto; right; auto).
    pose proof (opt_named s (x :: a) x n NE (or_introl eq_refl) H) as ON. inversion P as [|y l k PX P'|y l k PX P']; subst.
    + rewrite (proj1 ON PX). assert (U : u32 (z + 1) = (z + 1)%N) by (unfold u32; apply N.mod_small; unfold two32 in *; lia). rewrite U.
      rewrite (IH (n_next n) f k (z + 1)%N F' NI' NE' P'); [|lia|lia]. assert (Q : (N.of_nat (length k) + (z + 1) = N.of_nat (length (x :: k)) + z)%N) by (cbn [length]; lia). rewrite Q. reflexivity.
    + destruct (caseless_isequal (n_name n) (Some s_OPTION)) eqn:Q; [exfalso; apply PX; apply ON; reflexivity|]. apply IH; auto; lia.
Qed.

Lemma option_index_ok : forall s ch p o a b m, wf s ch -> children (s_heap s) p (a ++ o :: b) -> type_of (s_heap s) o = Some ELEMENT -> (N.of_nat (length a) < 2147483648)%N ->
  names_elements s_OPTION (s_heap s) a -> option_count (s_heap s) a m -> option_index o s = Ok (Some (Z.of_nat m)) s.
Proof.
  intros s ch p o a b m W C T SM NE (k & P & <-). pose proof W as (WL & WT & WO & WR). pose proof C as (np & HP & F).
  assert (EC : a ++ o :: b = ch p) by (eapply children_det; [exact C|apply (ch_children _ _ WT); exists np; auto]).
  assert (IN : In o (ch p)) by (rewrite <- EC; apply in_or_app; right; left; auto).
  destruct (wt_child _ _ WT _ _ IN) as (n & np' & H & _ & _ & PA & _). unfold type_of in T. rewrite H in T. cbn in T. injection T as TT.
  destruct (parent_doc _ _ WT WO _ _ H) as (d & nd & OD & HD & TD). { intros (Q & _); congruence. } { congruence. }
  unfold option_index. step (load_ok _ _ _ H). rewrite PA. cbn [deref]. rewrite bind_ret.
  assert (D : html_doc o s = Ok d s). { unfold html_doc. step (load_ok _ _ _ H). rewrite OD. step (load_ok _ _ _ HD). reflexivity. } step D. step (load_ok _ _ _ HP).
  unfold with_fuel. rewrite (index_from_ok s o b a (n_first np) (fuel_of s) k 0%N F).
  - rewrite N.add_0_r. pose proof (picks_length _ _ _ _ P) as LP. rewrite as_i32_small by lia. reflexivity.
  - pose proof (wt_nodup _ _ WT p) as ND. rewrite <- EC in ND. apply NoDup_remove_2 in ND. intros I. apply ND. apply in_or_app; auto.
  - exact NE.
  - exact P.
  - pose proof (ch_length s ch WL WT p) as Q. rewrite <- EC, app_length in Q. unfold fuel_of. lia.
  - unfold two32. lia.
Qed.
Lemma option_detached : forall s o n, s_heap s o = Some n -> n_parent n = None -> option_index o s = Bad NullDeref.
Proof. intros s o n H P. unfold option_index. step (load_ok _ _ _ H). rewrite P. reflexivity. Qed.

(** ** Among the options of a select *)
Lemma plain_opt : forall h l x, plainly_named h l -> In x l -> (opt h x <-> exists n, h x = Some n /\ has_tag false s_OPTION n).
Proof.
  intros h l x PN I. destruct opt_name as [N1 N2]. split; intros (n & H & T & D); exists n; (split; [exact H|]); (split; [exact T|]); (destruct D as [D|(b & B & D)]; [discriminate|]); right; exists b; (split; [exact B|]).
  - destruct (PN x n b I H B D) as [_ ->]. reflexivity.
  - cbn in D. rewrite D. reflexivity.
Qed.
Lemma picks_iff : forall (P Q : id -> Prop) l k, (forall x, In x l -> (P x <-> Q x)) -> picks P l k -> picks Q l k.
Proof.
  intros P Q l k H K. induction K as [|x l k PX K IH|x l k PX K IH]; [constructor|apply picks_yes|apply picks_no].
  - apply H; auto. left; auto.
  - apply IH. intros y I. apply H. right; auto.
  - intros X. apply PX. apply H; auto. left; auto.
  - apply IH. intros y I. apply H. right; auto.
Qed.
Lemma select_index_ok : forall s ch e k i x l, wf s ch -> options (s_heap s) e k -> flat (s_heap s) e k -> children (s_heap s) e l -> plainly_named (s_heap s) l ->
  nth_error k i = Some x -> option_index x s = Ok (Some (Z.of_nat i)) s.
Proof.
  intros s ch e k i x l W OP FL C PN N. pose proof (wf_linked _ _ W) as L. pose proof OP as (FI & NI & LS). assert (ND : NoDup k) by (eapply listed_nodup; eauto).
  pose proof LS as (l0 & O & B & P). pose proof (order_nodup _ L _ _ O) as NDO. pose proof (order_members _ _ _ O) as LV. inversion O as [i0 lc ls C' F]. subst i0 l0.
  assert (lc = l) by (eapply children_det; eauto). subst lc. inversion NDO as [|z w NX ND']; subst. set (Q := fun j => exists n, s_heap s j = Some n /\ has_tag false s_OPTION n).
  assert (PK : picks Q l k).
  { assert (P' : picks Q (concat ls) k). { inversion P as [|? ? k' PX Y|? ? k' PX Y]; subst; [exfalso; apply NI; left; auto|exact Y]. }
    eapply flat_picks; eauto. intros y I (n & H & TG & _) PX. destruct (ln_lists _ L e) as (l' & CC). { apply LV. left; auto. } destruct CC as (ne & M1 & M2 & M3 & M4 & M5).
    assert (l' = l) by (eapply children_det; [exists ne; split; [exact M1|exact M2]|exact C]). subst l'. apply M5. exists n. split; auto. unfold parent_of in PX. rewrite H in PX. split; auto. congruence. }
  assert (IX : In x k) by (eapply nth_error_In; eauto). destruct (picks_in _ _ _ _ PK x IX) as [I QX]. pose proof (orders_length _ _ _ F) as LL. cbn [length] in B.
  destruct (in_split _ _ I) as (a & b & EQ). subst l. assert (PN' : plainly_named (s_heap s) a) by (intros y n nm J; apply (PN y n nm); apply in_or_app; auto).
  assert (PK' : picks (opt (s_heap s)) (a ++ x :: b) k) by (eapply picks_iff; [|exact PK]; intros y J; symmetry; apply (plain_opt _ _ y PN J)).
  assert (OX : opt (s_heap s) x) by (apply (plain_opt _ _ x PN I); exact QX).
  destruct (picks_before _ _ _ _ _ _ PK' ND N OX) as (ka & KA & <-). destruct QX as (nx & HX & TX & _).
  eapply option_index_ok; eauto; [unfold type_of; rewrite HX; cbn; congruence|rewrite app_length in LL; lia| |exists ka; auto].
  intros y n nm J H1 H2 H3. apply (PN' y n nm J H1 H2 H3).
Qed.

(** ** In every history *)
Section Reach.
  Variables (j : nat) (s : st) (g : client).
  Hypothesis RE : reach j s g.
  Hypothesis B : briefly j.
  Lemma reach_opt_count : forall p o a b m, children (s_heap s) p (a ++ o :: b) -> type_of (s_heap s) o = Some ELEMENT -> (N.of_nat (length a) < 2147483648)%N ->
    names_elements s_OPTION (s_heap s) a -> option_count (s_heap s) a m -> option_index o s = Ok (Some (Z.of_nat m)) s.
  Proof. intros p o a b m. destruct (reach_roomy _ _ _ RE B) as [[ch W] _]. apply (option_index_ok s ch p o a b m W). Qed.
  Lemma reach_opt_index : forall e k i x l, options (s_heap s) e k -> flat (s_heap s) e k -> children (s_heap s) e l -> plainly_named (s_heap s) l ->
    nth_error k i = Some x -> option_index x s = Ok (Some (Z.of_nat i)) s.
  Proof. intros e k i x l. destruct (reach_roomy _ _ _ RE B) as [[ch W] _]. apply (select_index_ok s ch e k i x l W). Qed.
  Lemma reach_opt_detached : forall o, parent_of (s_heap s) o = None -> live (s_heap s) o -> option_index o s = Bad NullDeref.
  Proof. intros o P (n & H). unfold parent_of in P. rewrite H in P. eapply option_detached; eauto. Qed.
End Reach.
