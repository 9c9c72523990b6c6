(** What a call does to each element, and the values read later. *)
From Coq Require Import List NArith Bool Arith Lia ZifyBool ZifyNat ZifyN.
From Verif Require Import Base StringModel StrRefModel StrRefSpec StrRefProofs StrRefValues.
Import ListNotations.
Local Open Scope dom_scope.

Lemma set_after s1 s e x c s2 : c_els s1 = c_els s -> el_at s e = Some x -> set_ctl e c s1 = Ok tt s2 ->
  c_els s2 = put (c_els s) e (Some (with_ctl x c)).
Proof.
  intros E X H. destruct (set_els_at _ _ _ _ H) as (y & Y & P). rewrite (same_at _ _ _ E), X in Y. injection Y as <-. rewrite P, E. reflexivity.
Qed.
Lemma unchanged s s' e x : el_at s e = Some x -> c_els s' = c_els s -> c_els s' = put (c_els s) e (Some (with_ctl x (e_ctl x))).
Proof. intros X E. rewrite with_same, put_same; [exact E|exact X]. Qed.
Lemma data_text i s b s' : s_data i s = Ok b s' -> text s i = Some b.
Proof. unfold s_data, text. destruct (c_str s i) as [[d c]|]; [|discriminate]. intro H. injection H as <- _. reflexivity. Qed.

Ltac esame H := match type of H with ?m ?s = Ok ?a ?s' => assert (c_els s' = c_els s) by (revert H; match goal with |- _ -> ?G => intro H; refine ((_ : els_same m) s a s' H); es end) end.

Lemma target_els o s u s' e : sexec o s = Ok u s' -> target o = Some e ->
  exists x, el_at s e = Some x /\
    c_els s' = put (c_els s) e (match o with SDestroy _ => None | _ => Some (with_ctl x (ctl_after s o (e_ctl x))) end).
Proof.
  intros H T. destruct o; try discriminate; injection T as ->; cbn [sexec] in H; unfold done, str in H;
    inv_bind H as r s9 H9; injection H as <- <-;
    [unfold destroy_el in H9|unfold set_value in H9|unfold get_value in H9|unfold set_default in H9|unfold get_default in H9
    |unfold set_text in H9|unfold set_attr in H9|unfold set_checked in H9|unfold get_checked in H9|unfold set_dchecked in H9
    |unfold get_dchecked in H9];
    inv_bind H9 as x s0 H0; apply get_el_inv in H0 as [-> X]; exists x; (split; [exact X|]).
  - inv_bind H9 as u1 s1 E1. inv_bind H9 as u2 s2 E2. inv_bind H9 as u3 s3 E3. inv_bind H9 as u4 s4 E4.
    assert (c_els s1 = c_els s) by (destruct (e_ctl x); cbn [free_ctl] in E1; esame E1; assumption).
    esame E2. esame E3. esame E4. injection H9 as _ <-. cbn [set_els c_els]. congruence.
  - destruct (e_ctl x) as [|dv dvs v0 vs a b c d|dv dvs v0 vs t] eqn:C; [discriminate| |]; cbn [ctl_after].
    + inv_bind H9 as u1 s1 E1. inv_bind H9 as u2 s2 E2. esame E1. esame H9. destruct u2.
      rewrite <- (set_after _ _ _ _ _ _ H X E2). assumption.
    + inv_bind H9 as u1 s1 E1. assert (c_els s1 = c_els s) by (destruct dvs; esame E1; assumption).
      inv_bind H9 as u2 s2 E2. inv_bind H9 as u3 s3 E3. inv_bind H9 as u4 s4 E4. inv_bind H9 as u5 s5 E5.
      esame E2. esame E3. esame E4. esame E5. destruct r. apply (set_after s5); [congruence|exact X|exact H9].
  - destruct (e_ctl x) as [|dv dvs v vs a b c d|dv dvs v vs t] eqn:C; [discriminate| |]; cbn [ctl_after].
    + rewrite <- C. apply unchanged; [exact X|]. destruct vs; inv_bind H9 as u1 s1 E1; esame E1; injection H9 as _ <-; assumption.
    + destruct vs.
      * rewrite <- C. apply unchanged; [exact X|]. inv_bind H9 as u1 s1 E1; esame E1; injection H9 as _ <-; assumption.
      * inv_bind H9 as u1 s1 E1. inv_bind H9 as u2 s2 E2. inv_bind H9 as u3 s3 E3. esame E1. esame E3. destruct u2.
        injection H9 as _ <-. rewrite <- (set_after _ _ _ _ _ _ H X E2). assumption.
  - destruct (e_ctl x) as [|dv dvs v0 vs a b c d|dv dvs v0 vs t] eqn:C; [discriminate| |]; cbn [ctl_after];
      inv_bind H9 as u1 s1 E1; inv_bind H9 as u2 s2 E2; esame E1; esame H9; destruct u2;
      rewrite <- (set_after _ _ _ _ _ _ H X E2); assumption.
  - destruct (e_ctl x) as [|dv dvs v vs a b c d|dv dvs v vs t] eqn:C; [discriminate| |]; cbn [ctl_after].
    + rewrite <- C. apply unchanged; [exact X|]. inv_bind H9 as u1 s1 E1; esame E1; injection H9 as _ <-; assumption.
    + destruct dvs.
      * rewrite <- C. apply unchanged; [exact X|]. inv_bind H9 as u1 s1 E1; esame E1; injection H9 as _ <-; assumption.
      * inv_bind H9 as u1 s1 E1. inv_bind H9 as u2 s2 E2. inv_bind H9 as u3 s3 E3. esame E1. esame E3. destruct u2.
        injection H9 as _ <-. rewrite <- (set_after _ _ _ _ _ _ H X E2). assumption.
  - destruct (e_ctl x) as [|dv dvs v0 vs a b c d|dv dvs v0 vs t] eqn:C; [discriminate|discriminate|]; cbn [ctl_after].
    inv_bind H9 as u1 s1 E1. inv_bind H9 as u2 s2 E2. esame E1. esame E2. destruct r. apply (set_after s2); [congruence|exact X|exact H9].
  - inv_bind H9 as nm s1 E1. assert (TX := data_text _ _ _ _ E1). esame E1.
    destruct (e_ctl x) as [|dv dvs v0 vs dc dcs ck cks|dv dvs v0 vs t] eqn:C; cbn [ctl_after].
    + rewrite <- C. apply unchanged; [exact X|]. injection H9 as _ <-. assumption.
    + rewrite TX. fold (is_value nm) (is_checked nm) in H9. cbv zeta in *. destruct (is_value nm && negb dvs).
      * inv_bind H9 as u2 s2 E2. destruct u2. esame H9. rewrite <- (set_after _ _ _ _ _ _ H X E2). assumption.
      * destruct r. apply (set_after s1); [assumption|exact X|exact H9].
    + rewrite <- C. apply unchanged; [exact X|]. injection H9 as _ <-. assumption.
  - destruct (e_ctl x) as [|dv dvs v0 vs dc dcs ck cks|dv dvs v0 vs t] eqn:C; [discriminate| |discriminate]; cbn [ctl_after].
    destruct r. apply (set_after s); [reflexivity|exact X|exact H9].
  - destruct (e_ctl x) as [|dv dvs v0 vs dc dcs ck cks|dv dvs v0 vs t] eqn:C; [discriminate| |discriminate]; cbn [ctl_after].
    rewrite <- C. apply unchanged; [exact X|]. injection H9 as _ <-. reflexivity.
  - destruct (e_ctl x) as [|dv dvs v0 vs dc dcs ck cks|dv dvs v0 vs t] eqn:C; [discriminate| |discriminate]; cbn [ctl_after].
    destruct r. apply (set_after s); [reflexivity|exact X|exact H9].
  - destruct (e_ctl x) as [|dv dvs v0 vs dc dcs ck cks|dv dvs v0 vs t] eqn:C; [discriminate| |discriminate]; cbn [ctl_after].
    rewrite <- C. apply unchanged; [exact X|]. injection H9 as _ <-. reflexivity.
Qed.

Lemma free_els o s u s' : sexec o s = Ok u s' -> target o = None ->
  c_els s' = c_els s \/ exists x, c_els s' = c_els s ++ [Some x] /\ u = UEl (length (c_els s)) /\
    ((forall e, o <> SCopy e) -> exists d, e_ctl x = ctl_of d) /\
    (forall e, o = SCopy e -> exists y, el_at s e = Some y /\ e_ctl x = match e_ctl y with Area dv dvs v vs _ => Area dv dvs v vs None | c => c end).
Proof.
  intros H T. destruct o; try discriminate; cbn [sexec] in H; unfold done, str in H; inv_bind H as r s9 H9; injection H as <- <-.
  - left. exact (es_new _ _ _ _ H9).
  - left. exact (es_ref _ _ _ _ H9).
  - left. exact (es_unref _ _ _ _ H9).
  - right. destruct (create_els _ _ _ _ _ _ H9) as (x & d & X & -> & D). exists x. split; [exact X|]. split; [reflexivity|]. split; [eauto|discriminate].
  - right. unfold create_element_ns in H9. inv_bind H9 as pl s1 E1. apply es_split in E1. inv_bind H9 as rr s2 E2.
    unfold try in E2. destruct (create_internal (snd pl) ns (fst pl) s1) as [e s3|e s3|] eqn:Q; [| |discriminate]; injection E2 as <- <-.
    + destruct (create_els _ _ _ _ _ _ Q) as (x & d & X & -> & D). inv_bind H9 as u1 s4 E3. inv_bind H9 as u2 s5 E4. esame E3. esame E4.
      injection H9 as <- <-. exists x. rewrite E1 in X |- *. split; [congruence|]. split; [congruence|]. split; [eauto|discriminate].
    + inv_bind H9 as u1 s4 E3. inv_bind H9 as u2 s5 E4. discriminate.
  - right. unfold copy_el in H9. inv_bind H9 as x s1 E1. apply get_el_inv in E1 as [-> X]. inv_bind H9 as u1 s1 E1. inv_bind H9 as u2 s2 E2.
    inv_bind H9 as u3 s3 E3. inv_bind H9 as c s4 E4. esame E1. esame E2. esame E3.
    assert (c_els s4 = c_els s3 /\ c = match e_ctl x with Area dv dvs v vs _ => Area dv dvs v vs None | c => c end) as [? CC].
    { destruct (e_ctl x); cbn [copy_ctl] in E4; (split; [esame E4; assumption|]).
      - injection E4 as <- _. reflexivity.
      - inv_bind E4 as w1 t1 F1. inv_bind E4 as w2 t2 F2. injection E4 as <- _. reflexivity.
      - inv_bind E4 as w1 t1 F1. inv_bind E4 as w2 t2 F2. injection E4 as <- _. reflexivity. }
    injection H9 as <- <-. eexists. cbn [set_els c_els]. replace (c_els s4) with (c_els s) by congruence. split; [reflexivity|]. split; [reflexivity|]. split; [congruence|].
    intros e0 Q. injection Q as <-. exists x. split; [exact X|]. exact CC.
  - left. unfold set_title in H9. inv_bind H9 as u1 s1 E1. inv_bind H9 as u2 s2 E2. esame E1. esame E2. injection H9 as _ <-.
    cbn [c_els]. congruence.
  - left. unfold get_title in H9. inv_bind H9 as u1 s1 E1. esame E1. injection H9 as _ <-. assumption.
Qed.

(** An element another call works on stays as it is. *)
Lemma other_stays o s u s' e x : sexec o s = Ok u s' -> target o <> Some e -> el_at s e = Some x -> el_at s' e = Some x.
Proof.
  intros H T X. destruct (target o) as [e0|] eqn:Q.
  - destruct (target_els _ _ _ _ _ H Q) as (y & Y & P). rewrite (put_at' _ _ _ _ e P (el_len _ _ _ Y)).
    destruct (Nat.eqb_spec e e0) as [->|N]; [congruence|exact X].
  - destruct (free_els _ _ _ _ H Q) as [P|(y & P & _)]; [rewrite (same_at _ _ _ P); exact X|exact (app_at _ _ _ _ _ P X)].
Qed.
Lemma this_after o s u s' e x : sexec o s = Ok u s' -> target o = Some e -> (forall e', o <> SDestroy e') -> el_at s e = Some x ->
  el_at s' e = Some (with_ctl x (ctl_after s o (e_ctl x))).
Proof.
  intros H T D X. destruct (target_els _ _ _ _ _ H T) as (y & Y & P). rewrite X in Y. injection Y as <-.
  rewrite (put_at' _ _ _ _ e P (el_len _ _ _ X)), Nat.eqb_refl. destruct o; try reflexivity. congruence.
Qed.

(** A property of the control that every allowed call keeps is kept. *)
Lemma more_ctl (P : ctl -> Prop) (ok : sop -> bool) e :
  (forall o, ok o = true -> o <> SDestroy e) ->
  (forall o s c, ok o = true -> target o = Some e -> P c -> P (ctl_after s o c)) ->
  forall s own os s' own', smore s own os s' own' -> forallb ok os = true ->
  (exists x, el_at s e = Some x /\ P (e_ctl x)) -> exists x, el_at s' e = Some x /\ P (e_ctl x).
Proof.
  intros ND PR s own os s' own' M. induction M as [s own|s own o u s1 os s2 own2 L C X M IH|s own o x s1 os s2 own2 L C X M IH]; intros A.
  - auto.
  - cbn [forallb] in A. apply andb_prop in A as [A1 A2]. intros (y & Y & PY). apply IH; [exact A2|].
    destruct (target o) as [e0|] eqn:T.
    + destruct (Nat.eq_dec e0 e) as [->|N].
      * exists (with_ctl y (ctl_after s o (e_ctl y))). split; [|cbn [with_ctl e_ctl]; apply PR; assumption].
        apply (this_after _ _ _ _ _ _ X T); [|exact Y]. intros e' ->. cbn [target] in T. injection T as ->. exact (ND _ A1 eq_refl).
      * exists y. split; [|exact PY]. apply (other_stays _ _ _ _ _ _ X); [congruence|exact Y].
    + exists y. split; [|exact PY]. apply (other_stays _ _ _ _ _ _ X); [congruence|exact Y].
  - cbn [forallb] in A. apply andb_prop in A as [A1 A2]. intros (y & Y & PY). apply IH; [exact A2|].
    exists y. split; [|exact PY]. rewrite (same_at _ _ _ (exc_els _ _ _ _ X)). exact Y.
Qed.
