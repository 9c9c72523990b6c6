(** Symbolic execution of heap programs. *)
From Coq Require Import List Arith NArith Bool Lia ZifyBool ZifyNat ZifyN.
From Verif Require Import Base HeapModel HeapSpec HeapInv.
Import ListNotations.
Local Open Scope dom_scope.

Definition withh (s : st) (h : heap) : st := mkSt h (s_nxt s) (s_log s).
Definition addlog (s : st) (l : list event) : st := mkSt (s_heap s) (s_nxt s) (s_log s ++ l).

Lemma bind_ok : forall S A B (m : M S A) (k : A -> M S B) s a s',
  m s = Ok a s' -> bind m k s = k a s'.
Proof. intros. unfold bind. rewrite H. reflexivity. Qed.

Lemma bind_exc : forall S A B (m : M S A) (k : A -> M S B) s e s',
  m s = Exc e s' -> bind m k s = Exc e s'.
Proof. intros. unfold bind. rewrite H. reflexivity. Qed.

Lemma bind_ret : forall S A B (a : A) (k : A -> M S B) s, bind (ret a) k s = k a s.
Proof. reflexivity. Qed.

Lemma bind_assoc : forall S A B C (m : M S A) (f : A -> M S B) (g : B -> M S C) s,
  bind (bind m f) g s = bind m (fun a => bind (f a) g) s.
Proof. intros. unfold bind. destruct (m s); reflexivity. Qed.

Lemma load_ok : forall s i n, s_heap s i = Some n -> load i s = Ok n s.
Proof. intros. unfold load. rewrite H. reflexivity. Qed.

Lemma upd_ok : forall s i n f, s_heap s i = Some n -> upd i f s = Ok tt (withh s (hmod (s_heap s) i f)).
Proof. intros. unfold upd. rewrite H. reflexivity. Qed.

Lemma free_ok : forall s i n, s_heap s i = Some n -> free i s = Ok tt (withh s (hupd (s_heap s) i None)).
Proof. intros. unfold free. rewrite H. reflexivity. Qed.

Lemma hmod_get : forall h i f j n, h j = Some n ->
  hmod h i f j = Some (if Nat.eqb j i then f n else n).
Proof. intros. unfold hmod. rewrite H. destruct (Nat.eqb j i); reflexivity. Qed.

Lemma hmod_none : forall h i f j, hmod h i f j = None <-> h j = None.
Proof.
  intros. unfold hmod. destruct (Nat.eqb j i); [|tauto]. destruct (h j); simpl; split; congruence.
Qed.

Lemma hmod_live : forall h i f j, live (hmod h i f) j <-> live h j.
Proof.
  intros. unfold live, hmod. destruct (Nat.eqb j i); [|tauto].
  destruct (h j); simpl; split; intros [m H]; try discriminate; eauto.
Qed.

Lemma hmod_inv : forall h i f j n', hmod h i f j = Some n' ->
  exists n, h j = Some n /\ n' = (if Nat.eqb j i then f n else n).
Proof.
  intros h i f j n' H. unfold hmod in H. destruct (Nat.eqb j i); eauto.
  destruct (h j); inversion H; eauto.
Qed.

Lemma hmod_other : forall h i f j, j <> i -> hmod h i f j = h j.
Proof. intros. unfold hmod. apply Nat.eqb_neq in H. rewrite H. reflexivity. Qed.

Lemma hmod_same : forall h i f, hmod h i f i = option_map f (h i).
Proof. intros. unfold hmod. rewrite Nat.eqb_refl. reflexivity. Qed.

Lemma if_proj : forall A B (f : A -> B) (b : bool) x y, f (if b then x else y) = if b then f x else f y.
Proof. intros. destruct b; reflexivity. Qed.

Lemma if_same : forall A (b : bool) (x : A), (if b then x else x) = x.
Proof. intros. destruct b; reflexivity. Qed.

Lemma oid_eqb_eq : forall a b, oid_eqb a b = true <-> a = b.
Proof.
  intros [a|] [b|]; simpl; try (split; congruence). rewrite Nat.eqb_eq. split; congruence.
Qed.
Lemma oid_eqb_refl : forall a, oid_eqb a a = true.
Proof. intros. apply oid_eqb_eq. reflexivity. Qed.
Lemma oid_eqb_neq : forall a b, oid_eqb a b = false <-> a <> b.
Proof.
  intros. rewrite <- oid_eqb_eq. destruct (oid_eqb a b); split; congruence.
Qed.
Lemma oid_eqb_some : forall a b, oid_eqb (Some a) (Some b) = Nat.eqb a b.
Proof. reflexivity. Qed.

Lemma ntype_eqb_eq : forall a b, ntype_eqb a b = true <-> a = b.
Proof. intros [] []; simpl; split; congruence. Qed.
Lemma ntype_eqb_neq : forall a b, ntype_eqb a b = false <-> a <> b.
Proof. intros. rewrite <- ntype_eqb_eq. destruct (ntype_eqb a b); split; congruence. Qed.
Lemma ntype_eqb_refl : forall a, ntype_eqb a a = true.
Proof. intros []; reflexivity. Qed.

Lemma remove_id_in : forall i j l, In j (remove_id i l) <-> In j l /\ j <> i.
Proof.
  intros. unfold remove_id. rewrite filter_In. rewrite negb_true_iff, Nat.eqb_neq. tauto.
Qed.
Lemma remove_id_nodup : forall i l, NoDup l -> NoDup (remove_id i l).
Proof. intros. apply NoDup_filter. auto. Qed.
Lemma remove_id_notin : forall i l, ~ In i l -> remove_id i l = l.
Proof.
  induction l; simpl; intros; auto. destruct (Nat.eqb_spec a i); [subst; exfalso; tauto|].
  simpl. change (filter _ l) with (remove_id i l). rewrite IHl; tauto.
Qed.
Lemma remove_id_app : forall i a b, remove_id i (a ++ b) = remove_id i a ++ remove_id i b.
Proof. intros. unfold remove_id. apply filter_app. Qed.
Lemma remove_id_snoc : forall i l, ~ In i l -> remove_id i (l ++ [i]) = l.
Proof.
  intros. rewrite remove_id_app, remove_id_notin by auto. simpl. rewrite Nat.eqb_refl. simpl.
  apply app_nil_r.
Qed.
Lemma mem_id_in : forall i l, mem_id i l = true <-> In i l.
Proof.
  intros. unfold mem_id. rewrite existsb_exists. split.
  - intros (x & I & E). apply Nat.eqb_eq in E. subst. auto.
  - intros I. exists i. split; auto. apply Nat.eqb_refl.
Qed.

(** Push field projections through conditional updates. *)
Ltac nfields :=
  cbn [n_type n_name n_value n_ns n_prefix n_parent n_first n_last n_prev n_next n_owner n_ref
       n_pending n_attrs n_classes n_pend n_ro
       set_name set_value set_ns set_prefix set_parent set_first set_last set_prev set_next set_owner
       set_ref set_pending set_attrs set_classes set_pend set_ro clear_node].
Lemma ifn : forall (A : Type) (P : node -> A) (b : bool) x y, P (if b then x else y) = if b then P x else P y.
Proof. intros A P []; reflexivity. Qed.
Lemma if_skip : forall (A : Type) (P : node -> A) (b : bool) x y, P x = P y -> P (if b then x else y) = P y.
Proof. intros A P []; auto. Qed.
Ltac skip_set := match goal with
  | |- context [?P (if ?b then ?F ?x else ?x)] => is_const P;
      let r := eval cbn [P set_name set_value set_ns set_prefix set_parent set_first set_last set_prev set_next set_owner set_ref set_pending set_attrs set_classes set_pend set_ro] in (fun m => P (F m)) in
      match r with (fun m => P m) => rewrite (if_skip _ P b (F x) x (eq_refl (P x))) end
  end.
Ltac push_set := match goal with
  | |- context [?P (set_name ?v ?n)] => is_const P; let r := eval cbn [set_name P] in (fun m => P (set_name v m)) in let r' := eval cbv beta in (r n) in change (P (set_name v n)) with r'
  | |- context [?P (set_value ?v ?n)] => is_const P; let r := eval cbn [set_value P] in (fun m => P (set_value v m)) in let r' := eval cbv beta in (r n) in change (P (set_value v n)) with r'
  | |- context [?P (set_ns ?v ?n)] => is_const P; let r := eval cbn [set_ns P] in (fun m => P (set_ns v m)) in let r' := eval cbv beta in (r n) in change (P (set_ns v n)) with r'
  | |- context [?P (set_prefix ?v ?n)] => is_const P; let r := eval cbn [set_prefix P] in (fun m => P (set_prefix v m)) in let r' := eval cbv beta in (r n) in change (P (set_prefix v n)) with r'
  | |- context [?P (set_parent ?v ?n)] => is_const P; let r := eval cbn [set_parent P] in (fun m => P (set_parent v m)) in let r' := eval cbv beta in (r n) in change (P (set_parent v n)) with r'
  | |- context [?P (set_first ?v ?n)] => is_const P; let r := eval cbn [set_first P] in (fun m => P (set_first v m)) in let r' := eval cbv beta in (r n) in change (P (set_first v n)) with r'
  | |- context [?P (set_last ?v ?n)] => is_const P; let r := eval cbn [set_last P] in (fun m => P (set_last v m)) in let r' := eval cbv beta in (r n) in change (P (set_last v n)) with r'
  | |- context [?P (set_prev ?v ?n)] => is_const P; let r := eval cbn [set_prev P] in (fun m => P (set_prev v m)) in let r' := eval cbv beta in (r n) in change (P (set_prev v n)) with r'
  | |- context [?P (set_next ?v ?n)] => is_const P; let r := eval cbn [set_next P] in (fun m => P (set_next v m)) in let r' := eval cbv beta in (r n) in change (P (set_next v n)) with r'
  | |- context [?P (set_owner ?v ?n)] => is_const P; let r := eval cbn [set_owner P] in (fun m => P (set_owner v m)) in let r' := eval cbv beta in (r n) in change (P (set_owner v n)) with r'
  | |- context [?P (set_ref ?v ?n)] => is_const P; let r := eval cbn [set_ref P] in (fun m => P (set_ref v m)) in let r' := eval cbv beta in (r n) in change (P (set_ref v n)) with r'
  | |- context [?P (set_pending ?v ?n)] => is_const P; let r := eval cbn [set_pending P] in (fun m => P (set_pending v m)) in let r' := eval cbv beta in (r n) in change (P (set_pending v n)) with r'
  | |- context [?P (set_attrs ?v ?n)] => is_const P; let r := eval cbn [set_attrs P] in (fun m => P (set_attrs v m)) in let r' := eval cbv beta in (r n) in change (P (set_attrs v n)) with r'
  | |- context [?P (set_classes ?v ?n)] => is_const P; let r := eval cbn [set_classes P] in (fun m => P (set_classes v m)) in let r' := eval cbv beta in (r n) in change (P (set_classes v n)) with r'
  | |- context [?P (set_pend ?v ?n)] => is_const P; let r := eval cbn [set_pend P] in (fun m => P (set_pend v m)) in let r' := eval cbv beta in (r n) in change (P (set_pend v n)) with r'
  | |- context [?P (set_ro ?v ?n)] => is_const P; let r := eval cbn [set_ro P] in (fun m => P (set_ro v m)) in let r' := eval cbv beta in (r n) in change (P (set_ro v n)) with r'
  | |- context [?P (clear_node ?n)] => is_const P; let r := eval cbn [clear_node set_name set_value set_ns set_prefix set_parent set_first set_last set_prev set_next P] in (fun m => P (clear_node m)) in let r' := eval cbv beta in (r n) in change (P (clear_node n)) with r'
  | |- context [?P (if ?b then ?x else ?y)] => is_const P; match type of x with node => rewrite (ifn _ P b x y) end
  end.
Ltac nproj := cbv beta; repeat (first [skip_set|push_set]); rewrite ?if_same.

Lemma deref_ok : forall i s, deref (Some i) s = Ok i s.
Proof. reflexivity. Qed.

Lemma withh_heap : forall s h, s_heap (withh s h) = h.
Proof. reflexivity. Qed.
Lemma addlog_heap : forall s l, s_heap (addlog s l) = s_heap s.
Proof. reflexivity. Qed.
Lemma withh_nxt : forall s h, s_nxt (withh s h) = s_nxt s.
Proof. reflexivity. Qed.
Lemma addlog_nxt : forall s l, s_nxt (addlog s l) = s_nxt s.
Proof. reflexivity. Qed.
Lemma withh_withh : forall s h h', withh (withh s h) h' = withh s h'.
Proof. reflexivity. Qed.
Lemma addlog_withh : forall s h l, addlog (withh s h) l = withh (addlog s l) h.
Proof. reflexivity. Qed.
Lemma addlog_addlog : forall s l l', addlog (addlog s l) l' = addlog s (l ++ l').
Proof. intros. unfold addlog. simpl. rewrite app_assoc. reflexivity. Qed.
Lemma addlog_nil : forall s, addlog s [] = s.
Proof. intros. unfold addlog. rewrite app_nil_r. destruct s; reflexivity. Qed.
