(** Select elements and tables of every document a client can build. *)
From Coq Require Import List Arith NArith ZArith Bool Lia.
From Verif Require Import Base HeapModel HeapSpec HeapInv HistModel HistProofs TreeSpec TreeProofs TreeProofs3 WalkModel WalkSpec WalkProofs WalkReach ContentProofs
  HtmlModel HtmlSpec HtmlBase HtmlSelect HtmlTake HtmlRows HtmlTable HtmlInsert HtmlTables HtmlBodies.
Import ListNotations.

Lemma first_index_iff : forall A (P Q : A -> Prop) k z, (forall x, In x k -> (P x <-> Q x)) -> first_index P k z -> first_index Q k z.
Proof.
  intros A P Q k z E F. destruct F as [k N|a x b N X].
  - apply fi_none. rewrite Forall_forall in *. intros x I Y. apply (N x I). apply E; auto.
  - apply fi_some; [|apply E; auto; apply in_or_app; right; left; auto]. rewrite Forall_forall in *. intros y I Y. apply (N y I). apply E; auto. apply in_or_app. auto.
Qed.

Section Select.
  Variables (j : nat) (s : st) (g : client) (e : id) (k : list id).
  Hypothesis RE : reach j s g.
  Hypothesis B : briefly j.
  Hypothesis OP : options (s_heap s) e k.

  Lemma reach_length : select_length e s = Ok (N.of_nat (length k)) s.
  Proof. destruct (reach_roomy _ _ _ RE B) as [[ch W] [R _]]. eapply select_length_ok; eauto. Qed.
  Lemma reach_selected : exists z s', selected_index e s = Ok z s' /\ same_state s s' /\ first_index (carries (s_heap s) s_selected) k z.
  Proof. destruct (reach_roomy _ _ _ RE B) as [[ch W] [R _]]. eapply selected_index_ok; eauto. Qed.

  Lemma options_live : forall x, In x k -> live (s_heap s) x.
  Proof. intros x I. destruct OP as (_ & _ & l & _ & _ & P). destruct (picks_in _ _ _ _ P x I) as [_ (n & H & _)]. exists n; auto. Qed.

  Lemma reach_set : forall index x, (0 <= index)%Z -> nth_error k (Z.to_nat index) = Some x -> ~ read_only (s_heap s) x ->
    exists s' z s'', set_selected_index e index s = Ok tt s' /\ marked s x s_selected s' /\
      selected_index e s' = Ok z s'' /\ same_state s' s'' /\ first_index (fun y => carries (s_heap s) s_selected y \/ y = x) k z.
  Proof.
    intros index x I NX NR. destruct (reach_roomy _ _ _ RE B) as [[ch W] [R _]].
    destruct (set_selected_ok s ch e k index x W R OP I NX NR) as (s' & ch' & E & W' & R' & MK).
    assert (OP' : options (s_heap s') e k). { eapply options_placed; [|exact OP]. intros i n H. destruct (mk_nodes _ _ _ _ MK _ _ H) as (n' & H' & P & _). exists n'; auto. }
    destruct (selected_index_ok s' ch' e k W' R' OP') as (z & s'' & E2 & SM & FI). exists s', z, s''. repeat (split; [assumption|]).
    eapply first_index_iff; [|exact FI]. intros y Y. rewrite (mk_carries _ _ _ _ MK s_selected y (options_live y Y)). tauto.
  Qed.
  Lemma reach_set_out : forall index, (-2147483648 <= index < 2147483648)%Z -> index <> (-1)%Z -> nth_error k (Z.to_nat index) = None \/ (index < 0)%Z ->
    set_selected_index e index s = Bad NullDeref.
  Proof. intros index I N D. destruct (reach_roomy _ _ _ RE B) as [[ch W] [R _]]. eapply set_selected_out; eauto. Qed.
  Lemma reach_set_self : ~ read_only (s_heap s) e -> exists s', set_selected_index e (-1) s = Ok tt s' /\ marked s e s_selected s'.
  Proof. intros NR. destruct (reach_roomy _ _ _ RE B) as [[ch W] [R _]]. destruct (set_selected_self s ch e k W R OP NR) as (s' & ch' & E & _ & _ & MK). exists s'. auto. Qed.
  Lemma reach_remove_out : forall index, (index < 0 \/ Z.of_nat (length k) <= index)%Z -> select_remove e index s = Ok tt s.
  Proof. intros index D. destruct (reach_roomy _ _ _ RE B) as [[ch W] [R _]]. eapply select_remove_out; eauto. Qed.
  Lemma reach_remove : forall index x, (0 <= index)%Z -> nth_error k (Z.to_nat index) = Some x -> ~ read_only (s_heap s) x ->
    exists s' k', select_remove e index s = Ok tt s' /\ taken s x s' /\ lists false s_OPTION (s_heap s') e k' /\ picks (fun y => ~ anc (s_heap s) x y) k k'.
  Proof. intros index x I NX NR. destruct (reach_roomy _ _ _ RE B) as [[ch W] [R _]]. eapply select_remove_in; eauto. Qed.
End Select.

(** An option before the new one that carries the attribute stays the first. *)
Lemma first_before : forall A (P : A -> Prop) k z i x y, first_index P k z ->
  nth_error k i = Some x -> P x -> forall j, nth_error k j = Some y -> i < j -> z <> Z.of_nat j.
Proof.
  intros A P k z i x y F X PX j Y L. destruct F as [k N|a w b N PW].
  - lia.
  - intros Q. apply Nat2Z.inj in Q. subst j. rewrite nth_error_app1 in X by auto. rewrite Forall_forall in N. apply (N x); auto. eapply nth_error_In; eauto.
Qed.

Lemma reach_set_kept : forall j s g e k, reach j s g -> briefly j -> options (s_heap s) e k ->
  forall i x index y, nth_error k index = Some x -> ~ read_only (s_heap s) x -> nth_error k i = Some y -> i < index -> carries (s_heap s) s_selected y ->
  exists s' z s'', set_selected_index e (Z.of_nat index) s = Ok tt s' /\ selected_index e s' = Ok z s'' /\ z <> Z.of_nat index /\ carries (s_heap s') s_selected y.
Proof.
  intros j s g e k RE B OP i x index y X NR Y L C.
  destruct (reach_set j s g e k RE B OP (Z.of_nat index) x) as (s' & z & s'' & E & MK & E2 & _ & FI); auto. { lia. } { rewrite Nat2Z.id. exact X. }
  exists s', z, s''. split; auto. split; auto. split; [eapply (first_before _ _ _ _ i y x FI); eauto|].
  apply (mk_carries _ _ _ _ MK); auto. eapply options_live; eauto. eapply nth_error_In; eauto.
Qed.

Section Rows.
  Variables (j : nat) (s : st) (g : client) (e : id) (k : list id).
  Hypothesis RE : reach j s g.
  Hypothesis B : briefly j.
  Hypothesis RW : rows (s_heap s) e k.

  Lemma reach_insert_out : forall index, (index < -1 \/ Z.of_nat (length k) < index)%Z -> exists s', section_insert_row e index s = Exc INDEX_SIZE_ERR s' /\ unmoved s s'.
  Proof. intros index D. destruct (reach_roomy _ _ _ RE B) as [[ch W] [R _]]. eapply section_insert_out; eauto. Qed.
  Lemma reach_insert_nested : forall index x, ~ read_only (s_heap s) e -> (0 <= index)%Z -> nth_error k (Z.to_nat index) = Some x -> parent_of (s_heap s) x <> Some e ->
    exists s', section_insert_row e index s = Exc NOT_FOUND_ERR s' /\ unmoved s s'.
  Proof. intros index x NR I X P. destruct (reach_roomy _ _ _ RE B) as [[ch W] [R _]]. eapply section_insert_nested; eauto. Qed.
  Lemma reach_insert : forall index, ~ read_only (s_heap s) e -> (-1 <= index <= Z.of_nat (length k))%Z -> (forall x, row_at k index = Some x -> parent_of (s_heap s) x = Some e) ->
    exists row s', section_insert_row e index s = Ok row s' /\ rowed s e row (row_at k index) s' /\ lists true s_TR (s_heap s') e (insert_at (row_at k index) [row] k).
  Proof.
    intros index NR IB PX. destruct (reach_roomy _ _ _ RE B) as [[ch W] [R _]]. destruct (section_insert_ok s ch e k W R RW NR index IB PX) as (row & s' & E & _ & Q).
    exists row, s'. auto.
  Qed.
  Lemma reach_delete_out : forall index, (index < -1 \/ Z.of_nat (length k) <= index)%Z \/ k = [] -> section_delete_row e index s = Exc INDEX_SIZE_ERR s.
  Proof. intros index D. destruct (reach_roomy _ _ _ RE B) as [[ch W] [R _]]. eapply section_delete_out; eauto. Qed.
  Lemma reach_delete : forall index x, ~ read_only (s_heap s) e -> (-1 <= index)%Z -> row_named k index = Some x -> parent_of (s_heap s) x = Some e ->
    exists s' k', section_delete_row e index s = Ok tt s' /\ taken s x s' /\ lists true s_TR (s_heap s') e k' /\ picks (fun y => ~ anc (s_heap s) x y) k k'.
  Proof.
    intros index x NR I X P. destruct (reach_roomy _ _ _ RE B) as [[ch W] [R _]]. destruct (section_delete_ok s ch e k index x W R RW I X P NR) as (s' & k' & E & _ & Q).
    exists s', k'. auto.
  Qed.
  Lemma reach_delete_nested : forall index x, (-1 <= index)%Z -> row_named k index = Some x -> parent_of (s_heap s) x <> Some e ->
    exists s', section_delete_row e index s = Exc NOT_FOUND_ERR s' /\ same_state s s'.
  Proof. intros index x I X P. destruct (reach_roomy _ _ _ RE B) as [[ch W] [R _]]. eapply section_delete_nested; eauto. Qed.

  Lemma reach_table_out : forall index,
    ((index < -1 \/ Z.of_nat (length k) < index)%Z -> table_insert_row e index s = Exc INDEX_SIZE_ERR s) /\
    ((index < -1 \/ Z.of_nat (length k) <= index)%Z \/ k = [] -> table_delete_row e index s = Exc INDEX_SIZE_ERR s).
  Proof. intros index. destruct (reach_roomy _ _ _ RE B) as [[ch W] [R _]]. split; intros D; [eapply table_insert_out|eapply table_delete_out]; eauto. Qed.

  Variable l : list id.
  Hypothesis CL : children (s_heap s) e l.
  Lemma reach_ch : exists ch, wf s ch /\ ch e = l.
  Proof.
    destruct (reach_roomy _ _ _ RE B) as [[ch W] _]. exists ch. split; auto. pose proof W as (_ & WT & _).
    eapply TreeProofs3.children_det; [|exact CL]. apply ch_children; auto. destruct CL as (n & H & _). exists n; auto.
  Qed.

  Lemma reach_headless : forall index, k <> [] -> (forall x, In x l -> ~ part s_THEAD (s_heap s) x) ->
    ((-1 <= index <= Z.of_nat (length k))%Z -> table_insert_row e index s = Bad NullDeref) /\
    ((-1 <= index < Z.of_nat (length k))%Z -> table_delete_row e index s = Bad NullDeref).
  Proof.
    intros index NK NH. destruct reach_ch as (ch & W & EC). rewrite <- EC in NH. destruct (reach_roomy _ _ _ RE B) as [_ [R _]].
    split; intros IB; [eapply table_insert_headless|eapply table_delete_headless]; eauto.
  Qed.

  Variables (t : id) (kt : list id).
  Hypothesis FT : first_that (part s_THEAD (s_heap s)) l (Some t).
  Hypothesis RT : rows (s_heap s) t kt.
  Hypothesis NK : k <> [].
  Variable index : Z.

  Lemma reach_footless : forall m, body_rows (s_heap s) l m -> (forall x, In x l -> ~ part s_TFOOT (s_heap s) x) ->
    ((-1 <= index <= Z.of_nat (length k))%Z -> (Z.of_nat (length kt + m) <= at_index k true index)%Z -> length kt + m < length k -> table_insert_row e index s = Bad NullDeref) /\
    ((-1 <= index < Z.of_nat (length k))%Z -> (Z.of_nat (length kt + m) <= at_index k false index)%Z -> table_delete_row e index s = Bad NullDeref).
  Proof.
    intros m BR NF. destruct reach_ch as (ch & W & EC). rewrite <- EC in *. pose proof (reach_room _ _ _ RE B) as R. split; intros IB ZM.
    - intros LM. destruct (insert_section s ch e k W R RW NK index IB) as [-> ZB]. eapply (foot_missing s ch e t k kt); eauto.
    - destruct (delete_section s ch e k W R RW NK index IB) as [-> ZB]. eapply (foot_missing s ch e t k kt); eauto. discriminate.
  Qed.

  Lemma reach_put_head : (-1 <= index <= Z.of_nat (length k))%Z -> ~ read_only (s_heap s) t -> (at_index k true index < Z.of_nat (length kt))%Z \/ length kt = length k ->
    (forall x, row_at kt (at_index k true index) = Some x -> parent_of (s_heap s) x = Some t) -> put_in s e index t kt (at_index k true index).
  Proof. intros. destruct reach_ch as (ch & W & EC). rewrite <- EC in *. eapply put_head; eauto. eapply reach_room; eauto. Qed.
  Lemma reach_put_body : forall a b c kb m, (-1 <= index <= Z.of_nat (length k))%Z -> ~ read_only (s_heap s) b -> l = a ++ b :: c -> body_rows (s_heap s) a m -> part s_TBODY (s_heap s) b ->
    rows (s_heap s) b kb -> (Z.of_nat (length kt + m) <= at_index k true index)%Z -> length kt + m < length k ->
    (at_index k true index < Z.of_nat (length kt + m + length kb))%Z \/ length kt + m + length kb = length k ->
    (forall x, row_at kb (at_index k true index - Z.of_nat (length kt + m)) = Some x -> parent_of (s_heap s) x = Some b) ->
    put_in s e index b kb (at_index k true index - Z.of_nat (length kt + m)).
  Proof. intros. destruct reach_ch as (ch & W & EC). rewrite <- EC in *. eapply put_body; eauto. eapply reach_room; eauto. Qed.
  Lemma reach_put_foot : forall m tf kf, (-1 <= index <= Z.of_nat (length k))%Z -> ~ read_only (s_heap s) tf -> body_rows (s_heap s) l m -> first_that (part s_TFOOT (s_heap s)) l (Some tf) ->
    rows (s_heap s) tf kf -> (Z.of_nat (length kt + m) <= at_index k true index)%Z -> length kt + m < length k ->
    (at_index k true index < Z.of_nat (length kt + m + length kf))%Z \/ length kt + m + length kf = length k ->
    (forall x, row_at kf (at_index k true index - Z.of_nat (length kt + m)) = Some x -> parent_of (s_heap s) x = Some tf) ->
    put_in s e index tf kf (at_index k true index - Z.of_nat (length kt + m)).
  Proof. intros. destruct reach_ch as (ch & W & EC). rewrite <- EC in *. eapply put_foot; eauto. eapply reach_room; eauto. Qed.
  Lemma reach_cut_head : forall x, (-1 <= index < Z.of_nat (length k))%Z -> ~ read_only (s_heap s) t -> (at_index k false index < Z.of_nat (length kt))%Z ->
    row_named kt (at_index k false index) = Some x -> parent_of (s_heap s) x = Some t -> cut_from s e index t kt x.
  Proof. intros. destruct reach_ch as (ch & W & EC). rewrite <- EC in *. eapply cut_head; eauto. eapply reach_room; eauto. Qed.
  Lemma reach_cut_body : forall a b c kb m x, (-1 <= index < Z.of_nat (length k))%Z -> ~ read_only (s_heap s) b -> l = a ++ b :: c -> body_rows (s_heap s) a m -> part s_TBODY (s_heap s) b ->
    rows (s_heap s) b kb -> (Z.of_nat (length kt + m) <= at_index k false index < Z.of_nat (length kt + m + length kb))%Z ->
    row_named kb (at_index k false index - Z.of_nat (length kt + m)) = Some x -> parent_of (s_heap s) x = Some b -> cut_from s e index b kb x.
  Proof. intros. destruct reach_ch as (ch & W & EC). rewrite <- EC in *. eapply cut_body; eauto. eapply reach_room; eauto. Qed.
  Lemma reach_cut_foot : forall m tf kf x, (-1 <= index < Z.of_nat (length k))%Z -> ~ read_only (s_heap s) tf -> body_rows (s_heap s) l m -> first_that (part s_TFOOT (s_heap s)) l (Some tf) ->
    rows (s_heap s) tf kf -> (Z.of_nat (length kt + m) <= at_index k false index < Z.of_nat (length kt + m + length kf))%Z ->
    row_named kf (at_index k false index - Z.of_nat (length kt + m)) = Some x -> parent_of (s_heap s) x = Some tf -> cut_from s e index tf kf x.
  Proof. intros. destruct reach_ch as (ch & W & EC). rewrite <- EC in *. eapply cut_foot; eauto. eapply reach_room; eauto. Qed.
End Rows.
