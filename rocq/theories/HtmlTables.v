(** Rows of a table. *)
From Coq Require Import List Arith NArith ZArith Bool Lia ZifyBool ZifyNat ZifyN.
From Verif Require Import Base HeapModel HeapSpec HeapInv HeapExec HeapTree HeapInsert HeapFrame HeapCreate HeapOps HeapLoops HeapRemoveOp HeapAttrNode HeapContent HeapUnref HistModel HistProofs TreeSpec TreeProofs TreeProofs3
  StringModel WalkModel WalkSpec WalkProofs WalkLists WalkFinds WalkReach ContentProofs ImportProofs HtmlModel HtmlSpec HtmlBase HtmlSelect HtmlTake HtmlRows HtmlTable HtmlInsert.
Import ListNotations.
Local Open Scope dom_scope.

Lemma table_insert_out : forall s ch e k index, wf s ch -> roomy s -> rows (s_heap s) e k -> (index < -1 \/ Z.of_nat (length k) < index)%Z ->
  table_insert_row e index s = Exc INDEX_SIZE_ERR s.
Proof.
  intros s ch e k index W R RW D. unfold table_insert_row. step (rows_length_ok s ch e k W R RW). rewrite as_i32_small by (eapply rows_bound; eauto).
  assert (Q : (Z.of_nat (length k) <? index)%Z || (index <? -1)%Z = true) by lia. rewrite Q. reflexivity.
Qed.
Lemma table_delete_out : forall s ch e k index, wf s ch -> roomy s -> rows (s_heap s) e k -> (index < -1 \/ Z.of_nat (length k) <= index)%Z \/ k = [] ->
  table_delete_row e index s = Exc INDEX_SIZE_ERR s.
Proof.
  intros s ch e k index W R RW D. unfold table_delete_row. step (rows_length_ok s ch e k W R RW). rewrite as_i32_small by (eapply rows_bound; eauto).
  assert (Q : (Z.of_nat (length k) <=? index)%Z || (index <? -1)%Z || (N.of_nat (length k) =? 0)%N = true) by (destruct D as [D| ->]; [lia|cbn [length]; lia]). rewrite Q. reflexivity.
Qed.

(** ** The head of a table *)


Lemma named_iff : forall (name : bytes) n, name <> [] -> name <> [42%N] -> (element_node n && caseless_isequal (Some name) (n_name n) = true <-> has_tag true name n).
Proof.
  intros name n NE NS. rewrite <- (has_tag_iff true name n NE NS). rewrite !andb_true_iff. change caseless_isequal with (eq_of true). rewrite !eq_of_iff.
  split; intros [A B]; (split; [exact A|symmetry; exact B]).
Qed.
Lemma child_named_ok : forall s (name : bytes), name <> [] -> name <> [42%N] -> forall l c f, fwd (s_heap s) c l -> length l <= f ->
  exists o, child_named f name c s = Ok o s /\ first_that (part name (s_heap s)) l o.
Proof.
  intros s name NE NS l. induction l as [|x l IH]; intros c f F B; inversion F as [|i n l' H1 H3]; subst.
  - exists None. split; [destruct f; reflexivity|constructor].
  - destruct f as [|f]; [cbn [length] in B; lia|]. cbn [child_named]. step (load_ok _ _ _ H1).
    destruct (element_node n && caseless_isequal (Some name) (n_name n)) eqn:E.
    + exists (Some x). split; [reflexivity|]. apply ft_here. exists n. split; auto. apply (named_iff name n); auto.
    + destruct (IH (n_next n) f H3) as (o & A & C). { cbn [length] in B. lia. } exists o. split; auto. apply ft_next; auto.
      intros (m & M & T). assert (m = n) by congruence. subst m. apply (named_iff name n) in T; auto. congruence.
Qed.
Lemma first_that_det : forall A (P : A -> Prop) l o o', first_that P l o -> first_that P l o' -> o = o'.
Proof. intros A P l o o' X. revert o'. induction X; intros o' Y; inversion Y; subst; auto; contradiction. Qed.

Lemma table_part_ok : forall s ch (name : bytes) e ne o, name <> [] -> name <> [42%N] -> wf s ch -> roomy s -> s_heap s e = Some ne -> n_type ne = ELEMENT ->
  first_that (part name (s_heap s)) (ch e) o -> exists s', table_part name e s = Ok o s' /\ answered s o s'.
Proof.
  intros s ch name e ne o NE NS W R He T FT. pose proof W as (WL & WT & WO & WR).
  destruct (parent_doc _ _ WT WO _ _ He) as (d & nd & OD & HD & TD). { intros (Q & _); congruence. } { congruence. }
  assert (EDC : html_doc e s = Ok d s). { unfold html_doc. step (load_ok _ _ _ He). rewrite OD. step (load_ok _ _ _ HD). reflexivity. }
  destruct (ch_children _ _ WT e (ex_intro _ ne He)) as (ne' & He' & F). assert (ne' = ne) by congruence. subst ne'.
  destruct (child_named_ok s name NE NS (ch e) (n_first ne) (fuel_of s) F) as (o' & E & FT').
  { pose proof (ch_length s ch WL WT e). unfold fuel_of. lia. }
  rewrite (first_that_det _ _ _ _ _ FT' FT) in *. unfold table_part. step EDC. step (load_ok _ _ _ He).
  assert (EW : with_fuel (fun f => child_named f name (n_first ne)) s = Ok o s) by exact E. step EW.
  destruct o as [x|]; [|exists s; split; [reflexivity|]; split; [|split]; auto; intros j; destruct (s_heap s j); reflexivity].
  assert (HX : exists nx, s_heap s x = Some nx). { clear - FT. remember (Some x) as o. induction FT; try discriminate; auto. injection Heqo as ->. destruct H as (n & H & _). exists n; auto. }
  destruct HX as (nx & HX). exists (withh s (hmod (s_heap s) x ref_up)). split.
  - unfold ref_opt, node_ref. rewrite (bind_ok _ _ _ _ _ _ _ _ (upd_ok s x nx ref_up HX)). reflexivity.
  - split; [reflexivity|]. split; [reflexivity|]. intros j. cbn [withh s_heap]. unfold hmod. destruct (Nat.eqb_spec j x) as [->|NJ].
    + rewrite HX, oid_refl. cbn [option_map].
      assert (U : u32 (n_ref nx + 1) = (n_ref nx + 1)%N) by (pose proof (R _ _ HX); unfold u32; apply N.mod_small; unfold two32 in *; lia). unfold ref_up. rewrite U. reflexivity.
    + destruct (s_heap s j); auto. rewrite oid_other; auto.
Qed.

Lemma no_part : forall (P : id -> Prop) l, (forall x, In x l -> ~ P x) -> first_that P l None.
Proof. intros P l. induction l as [|x l IH]; intros H; [constructor|]. apply ft_next; [apply H; left; auto|]. apply IH. intros; apply H; right; auto. Qed.

Lemma head_name : s_THEAD <> [] /\ s_THEAD <> [42%N].
Proof. split; discriminate. Qed.

(** Without a head the call reads a NULL pointer. *)
Lemma in_section_headless : forall A s ch e ne insert (act : id -> Z -> M st A) len index, wf s ch -> roomy s -> s_heap s e = Some ne -> n_type ne = ELEMENT ->
  (forall x, In x (ch e) -> ~ part s_THEAD (s_heap s) x) -> in_section insert act e len index s = Bad NullDeref.
Proof.
  intros A s ch e ne insert act len index W R He T NH. destruct head_name. destruct (table_part_ok s ch s_THEAD e ne None) as (s' & E & _); auto. { apply no_part; auto. }
  unfold in_section. step E. reflexivity.
Qed.
Lemma table_insert_headless : forall s ch e k index, wf s ch -> roomy s -> rows (s_heap s) e k -> k <> [] -> (-1 <= index <= Z.of_nat (length k))%Z ->
  (forall x, In x (ch e) -> ~ part s_THEAD (s_heap s) x) -> table_insert_row e index s = Bad NullDeref.
Proof.
  intros s ch e k index W R RW NK IB NH. unfold table_insert_row. step (rows_length_ok s ch e k W R RW). rewrite as_i32_small by (eapply rows_bound; eauto).
  assert (Q : (Z.of_nat (length k) <? index)%Z || (index <? -1)%Z = false) by lia. rewrite Q.
  assert (Q2 : (N.of_nat (length k) =? 0)%N = false) by (destruct k; [congruence|cbn [length]; lia]). rewrite Q2.
  destruct RW as ((ne & He & T & _) & _). apply (in_section_headless _ s ch e ne); auto.
Qed.
Lemma table_delete_headless : forall s ch e k index, wf s ch -> roomy s -> rows (s_heap s) e k -> k <> [] -> (-1 <= index < Z.of_nat (length k))%Z ->
  (forall x, In x (ch e) -> ~ part s_THEAD (s_heap s) x) -> table_delete_row e index s = Bad NullDeref.
Proof.
  intros s ch e k index W R RW NK IB NH. unfold table_delete_row. step (rows_length_ok s ch e k W R RW). rewrite as_i32_small by (eapply rows_bound; eauto).
  assert (Q : (Z.of_nat (length k) <=? index)%Z || (index <? -1)%Z || (N.of_nat (length k) =? 0)%N = false) by (destruct k; [congruence|cbn [length] in *; lia]). rewrite Q.
  destruct RW as ((ne & He & T & _) & _). apply (in_section_headless _ s ch e ne); auto.
Qed.

(** ** Rows in the head *)

Lemma answered_children : forall s o s', answered s o s' -> forall p l, children (s_heap s) p l <-> children (s_heap s') p l.
Proof.
  intros s o s' (_ & _ & E) p l. split; apply children_links; intros j n H.
  - eexists. rewrite E, H. split; [reflexivity|]. destruct (oid_eqb o (Some j)); auto.
  - rewrite E in H. destruct (s_heap s j) as [m|] eqn:M; [|discriminate]. exists m. split; auto. injection H as <-. destruct (oid_eqb o (Some j)); auto.
Qed.
Lemma answered_keep : forall s o s', answered s o s' -> forall j n, s_heap s j = Some n -> exists n', s_heap s' j = Some n' /\ kept_fields n n' /\
  n_owner n' = n_owner n /\ n_parent n' = n_parent n /\ n_first n' = n_first n /\ n_next n' = n_next n /\ n_ro n' = n_ro n /\ n_ref n' = if oid_eqb o (Some j) then (n_ref n + 1)%N else n_ref n.
Proof. intros s o s' (_ & _ & E) j n H. eexists. rewrite E, H. split; [reflexivity|]. destruct (oid_eqb o (Some j)); repeat split. Qed.
Lemma answered_rows : forall s o s', answered s o s' -> forall e k, rows (s_heap s) e k -> rows (s_heap s') e k.
Proof.
  intros s o s' A e k ((ne & He & T & D) & NI & l & O & B & P). split; [|split; auto].
  - destruct (answered_keep _ _ _ A _ _ He) as (n' & H' & (K1 & _) & _ & _ & K2 & K3 & _). exists n'. split; auto. split; [congruence|]. rewrite K2, K3. exact D.
  - exists l. split; [|split; auto]. { eapply order_links; [|exact O]. intros p m. apply (answered_children _ _ _ A). }
    eapply picks_change; [|exact P]. intros x I. destruct (order_members _ _ _ O x I) as (n & H). destruct (answered_keep _ _ _ A _ _ H) as (n' & H' & (K1 & K2 & _) & _).
    unfold has_tag. split; intros (m & M & Q); [exists n'|exists n]; (split; [auto|]).
    + assert (m = n) by congruence. subst m. rewrite K1, K2. exact Q.
    + assert (m = n') by congruence. subst m. rewrite K1, K2 in Q. exact Q.
Qed.
Lemma answered_writable : forall s ch o s' i, wf s ch -> answered s o s' -> live (s_heap s) i -> ~ read_only (s_heap s) i -> ~ read_only (s_heap s') i.
Proof.
  intros s ch o s' i W A L NR Q. apply NR. eapply (read_only_back (s_heap s) (s_heap s')); [| |exact L|exact Q].
  - intros j m M. destruct (answered_keep _ _ _ A _ _ M) as (n' & H' & (K1 & _) & _ & K2 & _ & _ & K3 & _). exists n'. auto.
  - apply (wf_parents _ _ W).
Qed.
(** Room for one reference less. *)
Definition room (r : N) (s : st) : Prop := forall i n, s_heap s i = Some n -> (n_ref n + r < two32)%N.

Lemma hmod_children : forall h i (f : node -> node), (forall n, n_first (f n) = n_first n /\ n_next (f n) = n_next n) -> forall p l, children h p l -> children (hmod h i f) p l.
Proof.
  intros h i f F p l. apply children_links. intros j n H. destruct (Nat.eq_dec j i) as [->|NJ].
  - exists (f n). rewrite hmod_same, H. split; auto.
  - exists n. rewrite hmod_other by auto. auto.
Qed.
Lemma member_parent : forall s e l x n, linked s -> children (s_heap s) e l -> In x l -> s_heap s x = Some n -> n_parent n = Some e.
Proof.
  intros s e l x n L C I H. destruct (ln_lists _ L e) as (l' & m & H1 & H2 & H3 & H4 & H5). { destruct C as (a & A & _). exists a; auto. }
  assert (l' = l) by (eapply children_det; [exists m; split; eauto|exact C]). subst. apply H5 in I. destruct I as (nc & A & B & _). congruence.
Qed.

Lemma unwrap_rowed : forall s ch t s1 e l row r s2 ch2, wf s ch -> roomy s -> answered s (Some t) s1 -> children (s_heap s) e l -> In t l -> e <> t ->
  rowed s1 t row r s2 -> wf s2 ch2 -> exists s3, node_unref t s2 = Ok tt s3 /\ wf s3 ch2 /\ rowed s t row r s3.
Proof.
  intros s ch t s1 e l row r s2 ch2 W R A C I ET RW W2. pose proof (wf_linked _ _ W) as L.
  destruct (rw_row _ _ _ _ _ _ RW) as (n & ne & N1 & N2 & N3 & N4 & N5 & N6 & N7 & N8 & N9 & N10).
  assert (HT : exists nt, s_heap s t = Some nt). { destruct A as (_ & _ & E). rewrite E in N2. destruct (s_heap s t) as [x|]; [exists x; auto|discriminate]. } destruct HT as (nt & HT).
  destruct (answered_keep _ _ _ A _ _ HT) as (nt1 & HT1 & KT & KO & _ & _ & _ & _ & RT1). rewrite oid_refl in RT1. assert (ne = nt1) by congruence. subst ne.
  destruct (rw_nodes _ _ _ _ _ _ RW _ _ HT1) as (nt2 & HT2 & X1&X2&X3&X4&X5&X6&X7).
  pose proof (rw_lists _ _ _ _ _ _ RW e l (proj1 (answered_children _ _ _ A e l) C)) as C2. destruct (Nat.eqb_spec e t); [contradiction|].
  pose proof (member_parent _ _ _ _ _ (wf_linked _ _ W2) C2 I HT2) as PT. pose proof (R _ _ HT) as RB.
  destruct (unref_spec s2 ch2 t nt2 W2 HT2) as (h3 & ch3 & E3 & W3 & Z). { lia. } { lia. }
  rewrite PT in Z. cbn [is_none negb] in Z. rewrite orb_true_r in Z. destruct Z as [-> ->].
  exists (withh s2 (hmod (s_heap s2) t ref_down)). split; auto. split; auto. set (h3 := hmod (s_heap s2) t ref_down) in *.
  assert (FR : s_heap s row = None). { pose proof (rw_fresh _ _ _ _ _ _ RW) as Q. destruct A as (_ & _ & E). rewrite E in Q. destruct (s_heap s row); [discriminate|auto]. }
  assert (RT : row <> t) by congruence.
  assert (HR : h3 row = Some n) by (unfold h3; rewrite hmod_other by auto; exact N1).
  constructor; auto.
  - eapply wf_linked; exact W3.
  - exists n, nt. destruct KT as (K1&K2&K3&K4&K5&K6). repeat (split; [first [exact HR|congruence]|]). auto.
  - apply hmod_children; [split; reflexivity|]. apply (rw_empty _ _ _ _ _ _ RW).
  - intros p m CP. apply hmod_children; [split; reflexivity|]. apply (rw_lists _ _ _ _ _ _ RW). apply (answered_children _ _ _ A). exact CP.
  - intros j m M. destruct (answered_keep _ _ _ A _ _ M) as (m1 & M1 & (K1&K2&K3&K4&K5&K6) & _ & _ & _ & _ & _ & RM). destruct (rw_nodes _ _ _ _ _ _ RW _ _ M1) as (m2 & M2 & Y1&Y2&Y3&Y4&Y5&Y6&Y7).
    change (s_heap (withh s2 h3)) with h3. unfold h3. destruct (Nat.eq_dec j t) as [->|NJ].
    + rewrite oid_refl in RM. assert (m = nt) by congruence. subst m. rewrite hmod_same, M2. cbn [option_map]. exists (ref_down m2). split; auto.
      assert (RV : n_ref (ref_down m2) = n_ref nt) by (rewrite ref_down_val; lia). repeat (split; [cbn; congruence|]). exact RV.
    + rewrite oid_other in RM by auto. rewrite hmod_other by auto. exists m2. split; auto. repeat (split; [congruence|]). congruence.
Qed.

Lemma room_roomy : forall s, room 16 s -> roomy s.
Proof. intros s R i n H. pose proof (R _ _ H). unfold two32 in *. lia. Qed.
Lemma answered_roomy : forall s o s', room 16 s -> answered s o s' -> roomy s'.
Proof.
  intros s o s' R (_ & _ & E) i n H. rewrite E in H. destruct (s_heap s i) as [m|] eqn:M; [|discriminate]. pose proof (R _ _ M). unfold two32 in *.
  destruct (oid_eqb o (Some i)); injection H as <-; cbn [n_ref set_ref]; lia.
Qed.
Lemma reach_room : forall k s g, reach k s g -> briefly k -> room 16 s.
Proof.
  intros k s g R B i n H. assert (SH : short k) by (unfold short, briefly, two32 in *; lia). destruct (reach_good _ _ _ R SH) as [W AG].
  pose proof (ag_ref _ _ _ AG _ _ H). pose proof (ag_bound _ _ _ AG i). unfold briefly, two32 in *. lia.
Qed.

Section Part.
  Variable name : bytes.
  Hypothesis NM : name <> [] /\ name <> [42%N].
  Variables (s : st) (ch : id -> list id) (e t : id) (k kt : list id).
  Hypothesis W : wf s ch.
  Hypothesis R : room 16 s.
  Hypothesis RW : rows (s_heap s) e k.
  Hypothesis FT : first_that (part name (s_heap s)) (ch e) (Some t).
  Hypothesis RT : rows (s_heap s) t kt.
  Lemma part_child : In t (ch e) /\ e <> t.
  Proof.
    assert (I : In t (ch e)). { clear - FT. remember (Some t) as o. induction FT; try discriminate; [injection Heqo as ->; left; auto|right; auto]. }
    split; auto. intros ->. pose proof W as (_ & WT & _). destruct (wt_child _ _ WT _ _ I) as (a & b & A1 & A2 & A3 & A4 & _).
    exact (anc_proper_neq _ _ _ _ _ (wt_rooted _ _ WT t (ex_intro _ a A1)) A1 A4 (anc_refl _ _) eq_refl).
  Qed.

  Lemma part_start : exists s1 nt, table_part name e s = Ok (Some t) s1 /\ answered s (Some t) s1 /\ wf s1 ch /\ roomy s1 /\ rows (s_heap s1) t kt /\
    rows_length t s1 = Ok (N.of_nat (length kt)) s1 /\ s_heap s t = Some nt /\ n_parent nt = Some e.
  Proof.
    pose proof RW as ((ne & He & TE & _) & _). destruct NM as [N1 N2]. pose proof (room_roomy _ R) as R8.
    destruct (table_part_ok s ch name e ne (Some t) N1 N2 W R8 He TE FT) as (s1 & E1 & A1). pose proof W as (WL & WT & _).
    destruct part_child as [I _]. destruct (wt_child _ _ WT _ _ I) as (nt & b & HT & _ & _ & PT & _).
    destruct (answered_wf _ _ _ _ _ W A1 HT (R8 _ _ HT)) as [W1 HT1]. pose proof (answered_rows _ _ _ A1 _ _ RT) as RT1. pose proof (answered_roomy _ _ _ R A1) as R1.
    exists s1, nt. split; auto. split; auto. split; auto. split; auto. split; auto. split. { apply (rows_length_ok s1 ch t kt); auto. }
    split; auto.
  Qed.

  Hypothesis NR : ~ read_only (s_heap s) t.
  (** What the call does with the section [t], once it is the one. *)
  Definition on_part {A : Type} (act : id -> Z -> M st A) (z : Z) : M st A :=
    r <- try (act t z) ;; node_unref t ;;; match r with inl x => ret x | inr y => raise y end.

  Lemma part_insert : forall z, (0 <= z <= Z.of_nat (length kt))%Z -> (forall x, row_at kt z = Some x -> parent_of (s_heap s) x = Some t) ->
    exists s1 row s', table_part name e s = Ok (Some t) s1 /\ rows_length t s1 = Ok (N.of_nat (length kt)) s1 /\ on_part section_insert_row z s1 = Ok row s' /\
      rowed s t row (row_at kt z) s' /\ lists true s_TR (s_heap s') t (insert_at (row_at kt z) [row] kt).
  Proof.
    intros z ZB PX.
    pose proof (room_roomy _ R) as R8. pose proof (rows_bound _ _ _ RW) as BK. pose proof (rows_bound _ _ _ RT) as BT.
    destruct part_start as (s1 & nt & E1 & A1 & W1 & R1 & RT1 & EL & HT & PT). pose proof (answered_writable s ch (Some t) s1 t W A1 (ex_intro _ nt HT) NR) as NR1. destruct part_child as [I ET].
    destruct (section_insert_ok s1 ch t kt W1 R1 RT1 NR1 z) as (row & s2 & E2 & (ch2 & W2) & RR & LL). { lia. }
    { intros x X. rewrite <- (PX x X). unfold parent_of. destruct A1 as (_ & _ & E). rewrite E. destruct (s_heap s x); auto. destruct (oid_eqb (Some t) (Some x)); reflexivity. }
    pose proof W as (WL & WT & _). assert (LE : live (s_heap s) e) by (destruct RW as ((ne & He & _) & _); exists ne; auto).
    destruct (unwrap_rowed s ch t s1 e (ch e) row _ s2 ch2 W R8 A1 (ch_children _ _ WT e LE) I ET RR W2) as (s3 & E3 & W3 & RR3).
    exists s1, row, s3. split; [exact E1|]. split; [exact EL|]. split; [|split; auto].
    - unfold on_part. assert (TE : try (section_insert_row t z) s1 = Ok (inl row) s2) by (unfold try; rewrite E2; reflexivity). step TE. step E3. reflexivity.
    - eapply rowed_lists; eauto; [eapply wf_linked; eauto| | |].
      + apply listed_lists. apply RT.
      + destruct RT as (FI & _ & LS). eapply listed_nodup; eauto. eapply wf_linked; eauto.
      + intros x X. split; [|auto]. unfold row_at in X. destruct (z =? -1)%Z; [discriminate|]. eapply nth_error_In; eauto.
  Qed.

  Lemma part_delete : forall z x, (0 <= z)%Z -> row_named kt z = Some x -> parent_of (s_heap s) x = Some t ->
    exists s1 s' kt', table_part name e s = Ok (Some t) s1 /\ rows_length t s1 = Ok (N.of_nat (length kt)) s1 /\ on_part section_delete_row z s1 = Ok tt s' /\
      (forall p l, live (s_heap s') p -> children (s_heap s) p l -> children (s_heap s') p (without x l)) /\
      live (s_heap s') t /\ lists true s_TR (s_heap s') t kt' /\ picks (fun y => ~ anc (s_heap s) x y) kt kt'.
  Proof.
    intros z x ZB NT PX.
    pose proof (room_roomy _ R) as R8. pose proof (rows_bound _ _ _ RW) as BK. pose proof (rows_bound _ _ _ RT) as BT. pose proof W as (WL & WT & _).
    destruct part_start as (s1 & nt & E1 & A1 & W1 & R1 & RT1 & EL & HT & PT). pose proof (answered_writable s ch (Some t) s1 t W A1 (ex_intro _ nt HT) NR) as NR1. destruct part_child as [I ET].
    destruct (section_delete_ok s1 ch t kt z x W1 R1 RT1) as (s2 & kt' & E2 & (ch2 & W2) & TK & LL & PK); auto. { lia. }
    { rewrite <- PX. unfold parent_of. destruct A1 as (_ & _ & E). rewrite E. destruct (s_heap s x); auto. destruct (oid_eqb (Some t) (Some x)); reflexivity. }
    destruct (row_parent s1 ch t kt x W1 RT1 (row_named_in _ _ _ NT)) as (nx & HX & _ & _ & AX & NX).
    assert (LX : live (s_heap s1) x) by (exists nx; auto).
    destruct (answered_keep _ _ _ A1 _ _ HT) as (nt1 & HT1 & (KT & _) & _ & PT1 & _ & _ & _ & RR1). rewrite oid_refl in RR1.
    assert (NT1 : ~ anc (s_heap s1) x t) by (apply (not_both s1 ch t x W1); auto; exists nt1; auto).
    assert (TT : n_type nt = ELEMENT) by (destruct RT as ((a & A & B & _) & _); congruence).
    destruct (tk_stays _ _ _ TK _ _ HT1 NT1) as (nt2 & HT2 & Y1 & _ & _ & _ & _ & _ & Y7). { congruence. }
    pose proof RW as ((ne & He & TE & _) & _). destruct (answered_keep _ _ _ A1 _ _ He) as (ne1 & He1 & (KE & _) & _).
    assert (NE1 : ~ anc (s_heap s1) x e). { intros Q. apply NT1. eapply anc_step; [exact HT1|rewrite PT1; exact PT|exact Q]. }
    destruct (tk_stays _ _ _ TK _ _ He1 NE1) as (ne2 & He2 & _). { congruence. }
    assert (CE : children (s_heap s2) e (without x (ch e))). { apply (tk_lists _ _ _ TK); [exists ne2; auto|]. apply (answered_children _ _ _ A1). apply (ch_children _ _ WT). exists ne; auto. }
    assert (IT : In t (without x (ch e))). { unfold without. apply filter_In. split; auto. apply negb_true_iff, Nat.eqb_neq. auto. }
    pose proof (member_parent _ _ _ _ _ (wf_linked _ _ W2) CE IT HT2) as PT2. pose proof (R8 _ _ HT).
    destruct (unref_spec s2 ch2 t nt2 W2 HT2) as (h3 & ch3 & E3 & W3 & Z). { lia. } { lia. }
    rewrite PT2 in Z. cbn [is_none negb] in Z. rewrite orb_true_r in Z. destruct Z as [-> ->]. set (s3 := withh s2 (hmod (s_heap s2) t ref_down)) in *.
    assert (HC : forall p l, children (s_heap s2) p l -> children (s_heap s3) p l) by (intros p l C; apply hmod_children; [split; reflexivity|exact C]).
    assert (AB : forall y, anc (s_heap s1) x y <-> anc (s_heap s) x y).
    { intros y. split; apply anc_parents; intros j m p M PM.
      - destruct A1 as (_ & _ & E). rewrite E in M. destruct (s_heap s j) as [m0|]; [|discriminate]. exists m0. split; auto. destruct (oid_eqb (Some t) (Some j)); injection M as <-; exact PM.
      - destruct (answered_keep _ _ _ A1 _ _ M) as (m1 & M1 & _ & _ & Q & _). exists m1. split; auto. congruence. }
    exists s1, s3, kt'. split; [exact E1|]. split; [exact EL|]. split; [|split; [|split; [|split]]].
    - unfold on_part. assert (TE' : try (section_delete_row t z) s1 = Ok (inl tt) s2) by (unfold try; rewrite E2; reflexivity). step TE'. step E3. reflexivity.
    - intros p l LP C. apply HC. apply (tk_lists _ _ _ TK); [|apply (answered_children _ _ _ A1); exact C].
      destruct LP as (np & HP). change (s_heap s3) with (hmod (s_heap s2) t ref_down) in HP. destruct (Nat.eq_dec p t) as [->|NP]; [exists nt2; auto|]. rewrite hmod_other in HP by auto. exists np; auto.
    - exists (ref_down nt2). change (s_heap s3) with (hmod (s_heap s2) t ref_down). rewrite hmod_same, HT2. reflexivity.
    - destruct LL as (l & O & P). exists l. split; [eapply order_links; eauto|]. eapply picks_change; [|exact P]. intros y _. change (s_heap s3) with (hmod (s_heap s2) t ref_down).
      unfold has_tag, hmod. destruct (Nat.eqb_spec y t) as [->|NY]; [|tauto]. rewrite HT2. cbn [option_map]. split; intros (m & M & Q); injection M as <-; eexists; (split; [reflexivity|]); exact Q.
    - eapply picks_iff; [|exact PK]. intros y. split; intros Q1 Q2; apply Q1, AB, Q2.
  Qed.
End Part.
