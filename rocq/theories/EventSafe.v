(** Dispatch never touches freed memory, whatever the listeners do. *)
From Coq Require Import List Arith NArith Bool Lia.
From Verif Require Import Base RingModel RingSpec RingProofs EventModel EventSpec EventProofs.
Import ListNotations.
Local Open Scope dom_scope.

Definition safe {A} (r : res estate A) : Prop :=
  match r with
  | Ok _ s' => exists q', einv s' q' /\ ev_in_dispatch (es_ev s') = true
  | Exc _ _ => False
  | Bad b => b = OutOfFuel
  end.
Lemma safe_bind : forall A B (m : M estate A) (f : A -> M estate B) s,
  safe (m s) -> (forall a s' q', einv s' q' -> ev_in_dispatch (es_ev s') = true -> m s = Ok a s' -> safe (f a s')) -> safe (bind m f s).
Proof.
  intros A B m f s H K. unfold bind. destruct (m s) as [a s'|e s'|b]; cbn [safe] in H |- *; auto.
  destruct H as (q' & V & D). eapply K; eauto.
Qed.

Lemma still_there_ok : forall s q n le, einv s q -> exists b, still_there n le s = Ok b s /\ (b = true <-> In le (q n)).
Proof.
  intros s q n le V. unfold still_there. rewrite (iv_head _ _ V). pose proof (iv_ring _ _ V n) as R. pose proof (einv_length _ _ n V) as L.
  destruct (q n) as [|a m]; cbn [hd_error].
  - exists false. split; auto. split; [discriminate|intros []].
  - destruct (has_ok _ a m le R (S (es_fresh s))) as (b & A & B); [simpl in *; lia|]. exists b. split; auto.
    erewrite onring_ok by exact A. destruct s; reflexivity.
Qed.

Section Behave.
Variable behave : list item -> list hop.

Lemma call_handler_safe : forall s q n l ph, einv s q -> ev_in_dispatch (es_ev s) = true ->
  exists s' q', call_handler behave n l ph s = Ok tt s' /\ einv s' q' /\ flags_grow (es_ev s) (es_ev s').
Proof.
  intros s q n l ph V D. unfold call_handler. set (s1 := set_log (cons (Called n l ph)) s).
  assert (V1 : einv s1 q) by (eapply einv_ext; eauto). apply (run_ops_safe (behave (es_log s1)) s1 q V1). exact D.
Qed.

Lemma target_loop_safe : forall fuel s q n ph le, einv s q -> ev_in_dispatch (es_ev s) = true -> In le (q n) -> safe (target_loop behave fuel n ph le s).
Proof.
  induction fuel as [|f]; intros s q n ph le V D I; [reflexivity|]. cbn [target_loop].
  destruct (es_info s le) as [i|] eqn:EI; [|exfalso; apply (iv_info _ _ V _ _ I); auto].
  rewrite (rbind_ok _ _ _ _ _ _ _ _ (load_info_ok _ _ _ EI)). unfold bind at 1, getst.
  set (M := if has_type (es_ev s) i && applies ph (es_ev s) i then _ else _).
  assert (G : exists b s1 q1, M s = Ok b s1 /\ einv s1 q1 /\ ev_in_dispatch (es_ev s1) = true /\ (b = true -> In le (q1 n))).
  { unfold M. destruct (has_type (es_ev s) i && applies ph (es_ev s) i).
    - destruct (call_handler_safe s q n (e_listener i) ph V D) as (s1 & q1 & A1 & B1 & C1). rewrite (rbind_ok _ _ _ _ _ _ _ _ A1).
      assert (D1 : ev_in_dispatch (es_ev s1) = true) by (destruct C1 as (_ & _ & _ & C1 & _); congruence).
      unfold bind, getst. destruct (ev_stop_now (es_ev s1)).
      + exists false, s1, q1. split; auto. split; auto. split; auto. discriminate.
      + destruct (still_there_ok s1 q1 n le B1) as (b & A2 & B2). exists b, s1, q1. split; auto. split; auto. split; auto. apply B2.
    - exists true, s, q. auto. }
  destruct G as (b & s1 & q1 & A & V1 & D1 & I1). rewrite (rbind_ok _ _ _ _ _ _ _ _ A).
  destruct b; cbn [negb].
  - specialize (I1 eq_refl). apply in_split in I1. destruct I1 as (l1 & l2 & Q1). pose proof (iv_ring _ _ V1 n) as R. rewrite Q1 in R.
    destruct (qring_next _ _ _ _ R) as (c & HC & NC). rewrite (rbind_ok _ _ _ _ _ _ _ _ (load_next_ok _ _ _ HC)). rewrite NC.
    unfold bind, get_head. destruct (opt_eqb Nat.eqb (Some (hd le (l2 ++ l1))) (es_head s1 n)).
    + exists q1. auto.
    + apply IHf with (q := q1); auto. rewrite Q1. apply in_app_iff. destruct l2 as [|y l2]; [|simpl; auto]. destruct l1 as [|y l1]; simpl; auto.
  - exists q1. auto.
Qed.
Lemma target_dispatch_safe : forall fuel s q n ph, einv s q -> ev_in_dispatch (es_ev s) = true -> safe (target_dispatch behave fuel n ph s).
Proof.
  intros fuel s q n ph V D. unfold target_dispatch, bind at 1, get_head. pose proof (iv_head _ _ V n) as H. destruct (es_head s n) as [le|].
  - cbn [bind modst]. unfold bind, modst. apply target_loop_safe with (q := q); auto. { eapply einv_ext; eauto. } destruct (q n); [discriminate|]. injection H as ->. simpl; auto.
  - exists q. auto.
Qed.
Lemma visit_safe : forall fuel ph ts s q, einv s q -> ev_in_dispatch (es_ev s) = true -> safe (visit behave fuel ph ts s).
Proof.
  intros fuel ph. induction ts as [|t ts]; intros s q V D; [exists q; auto|]. cbn [visit].
  apply safe_bind; [apply target_dispatch_safe with (q := q); auto|]. intros [] s' q' V' D' _. unfold bind, getst.
  destruct (ev_stop_now (es_ev s') || ev_stop (es_ev s')); [exists q'; auto|]. eapply IHts; eauto.
Qed.

Lemma listening_loop_ok : forall l2 s q n l1 x hd0 fuel, einv s q -> q n = l1 ++ x :: l2 -> hd_error (q n) = Some hd0 -> length l2 < fuel ->
  exists b, listening_loop fuel hd0 x s = Ok b s /\ (b = false -> forall y i, In y (x :: l2) -> es_info s y = Some i -> has_type (es_ev s) i = false).
Proof.
  induction l2 as [|x' l2]; intros s q n l1 x hd0 fuel V Q H LT; (destruct fuel as [|f]; [simpl in LT; lia|]);
    assert (IX : In x (q n)) by (rewrite Q; apply in_app_iff; simpl; auto);
    destruct (es_info s x) as [i|] eqn:EI; try (exfalso; apply (iv_info _ _ V _ _ IX); auto; fail);
    pose proof (iv_ring _ _ V n) as R; rewrite Q in R; destruct (qring_next _ _ _ _ R) as (c & HC & NC);
    cbn [listening_loop]; rewrite (rbind_ok _ _ _ _ _ _ _ _ (load_info_ok _ _ _ EI));
    unfold bind at 1, getst; (destruct (has_type (es_ev s) i) eqn:HT; [exists true; split; auto; discriminate|]);
    rewrite (rbind_ok _ _ _ _ _ _ _ _ (load_next_ok _ _ _ HC)); rewrite NC.
  - assert (E : hd x ([] ++ l1) = hd0). { rewrite Q in H. destruct l1; simpl in *; congruence. } rewrite E, Nat.eqb_refl.
    exists false. split; auto. intros _ y j [<-|[]] J. congruence.
  - cbn [app hd]. assert (NE : x' <> hd0).
    { pose proof (qring_nodup _ _ R) as ND'. rewrite Q in H. destruct l1 as [|a l1]; simpl in H; injection H as <-.
      - intros ->. inversion ND'; subst. apply H1. simpl; auto.
      - intros ->. inversion ND'; subst. apply H1. apply in_app_iff. simpl; auto. }
    apply Nat.eqb_neq in NE. rewrite NE.
    assert (Q' : q n = (l1 ++ [x]) ++ x' :: l2) by (rewrite <- app_assoc; auto).
    destruct (IHl2 s q n (l1 ++ [x]) x' hd0 f V Q' H) as (b & A & B); [simpl in LT; lia|].
    exists b. split; auto. intros Eb y j [<-|J] E; [congruence|]. eapply B; eauto.
Qed.
Lemma listening_ok : forall s q n, einv s q ->
  exists b, listening n s = Ok b s /\ (b = false -> forall y i, In y (q n) -> es_info s y = Some i -> has_type (es_ev s) i = false).
Proof.
  intros s q n V. unfold listening. pose proof (iv_head _ _ V n) as H. pose proof (einv_length _ _ n V) as L. destruct (q n) as [|a m] eqn:Q; rewrite H.
  - exists false. split; auto. intros _ y i [].
  - cbn [hd_error]. assert (H' : hd_error (q n) = Some a) by (rewrite Q; auto).
    destruct (listening_loop_ok m s q n [] a a (S (es_fresh s)) V Q H') as (b & A & B); [simpl in L; lia|]. exists b; auto.
Qed.
Lemma collect_safe : forall fuel n s q, einv s q -> ev_in_dispatch (es_ev s) = true -> safe (collect fuel n s).
Proof.
  induction fuel as [|f]; intros [n|] s q V D; cbn [collect]; try (exists q; auto; fail); [reflexivity|].
  destruct (listening_ok s q n V) as (b & A & _). rewrite (rbind_ok _ _ _ _ _ _ _ _ A). unfold bind at 1, getst.
  apply safe_bind; [eapply IHf; eauto|]. intros a s' q' V' D' _. exists q'. auto.
Qed.
Lemma act_safe : forall a s q, einv s q -> ev_in_dispatch (es_ev s) = true -> safe (act a s).
Proof. intros a s q V D. unfold act. destruct (es_actions s); exists q; split; auto. eapply einv_ext; eauto. Qed.
Lemma modev_safe : forall f s q, einv s q -> (forall e, ev_in_dispatch e = true -> ev_in_dispatch (f e) = true) -> ev_in_dispatch (es_ev s) = true -> safe (modst (set_ev f) s).
Proof. intros f s q V K D. exists q. split; [eapply einv_ext; eauto|]. apply K; auto. Qed.

Lemma node_dispatch_safe : forall fuel et s q, einv s q ->
  match node_dispatch behave fuel et s with
  | Ok _ s' => exists q', einv s' q' /\ ev_in_dispatch (es_ev s') = true
  | Exc e s' => (e = DISPATCH_REQUEST_ERR /\ ev_in_dispatch (es_ev s) = true /\ s' = s) \/ (e = UNSPECIFIED_EVENT_TYPE_ERR /\ ev_type (es_ev s) = None)
  | Bad b => b = OutOfFuel
  end.
Proof.
  intros fuel et s q V. unfold node_dispatch, bind at 1, getst. destruct (ev_in_dispatch (es_ev s)) eqn:D; [left; auto|].
  unfold bind at 1, modst at 1. destruct (ev_type (es_ev s)) as [ty|] eqn:T; [|right; auto].
  match goal with |- match ?r with _ => _ end => assert (H : safe r); [|destruct r; cbn [safe] in H; auto; destruct H] end.
  assert (V1 : einv (set_ev ev_set_in_dispatch s) q) by (eapply einv_ext; eauto).
  apply safe_bind; [eapply collect_safe; eauto|]. intros ts s2 q2 V2 D2 _.
  apply safe_bind; [apply modev_safe with (q := q2); auto|]. intros [] s3 q3 V3 D3 _.
  apply safe_bind; [eapply act_safe; eauto|]. intros [] s4 q4 V4 D4 _.
  apply safe_bind; [eapply visit_safe; eauto|]. intros st s5 q5 V5 D5 _.
  apply safe_bind.
  { destruct st; [exists q5; auto|]. apply safe_bind; [apply modev_safe with (q := q5); auto|]. intros [] s6 q6 V6 D6 _.
    apply safe_bind; [eapply target_dispatch_safe; eauto|]. intros [] s7 q7 V7 D7 _. unfold bind at 1, getst.
    destruct (ev_stop_now (es_ev s7) || ev_stop (es_ev s7)); [exists q7; auto|].
    apply safe_bind; [apply modev_safe with (q := q7); auto|]. intros [] s8 q8 V8 D8 _. eapply visit_safe; eauto. }
  intros st' s6 q6 V6 D6 _. apply safe_bind.
  { destruct st'; [exists q6; auto|]. unfold bind, getst. eapply act_safe; eauto. }
  intros [] s7 q7 V7 D7 _. apply safe_bind; [eapply act_safe; eauto|]. intros [] s8 q8 V8 D8 _. exists q8. auto.
Qed.
End Behave.

Lemma ereach_inv : forall s, ereach s -> exists q, einv s q.
Proof.
  induction 1 as [p f h a ev|s o s' _ [q V] E|s ev _ [q V]|s b fu et r s' _ [q V] E].
  - exists (fun _ => []). apply einv_blank.
  - destruct (run_op_safe o s q V) as [(s1 & q1 & A & B & _)|[A _]]; [|congruence]. exists q1. congruence.
  - exists q. eapply einv_ext; eauto.
  - pose proof (node_dispatch_safe b fu et s q V) as H. rewrite E in H. destruct H as (q' & V' & _). exists q'; auto.
Qed.
