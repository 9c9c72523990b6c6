(** The values, default values and checked states that are read. *)
From Coq Require Import List NArith Bool Arith Lia ZifyBool ZifyNat ZifyN.
From Verif Require Import Base StringModel StrRefModel StrRefSpec StrRefProofs StrRefSteps StrRefCtl StrRefTheorems StrRefValues StrRefEffect.
Import ListNotations.
Local Open Scope dom_scope.

Definition reads_value (c : ctl) : option nat :=
  match c with
  | Plain => None
  | Input dv _ v vs _ _ _ _ => if vs then v else dv
  | Area _ _ v vs t => if vs then v else t
  end.
Definition reads_default (c : ctl) : option nat :=
  match c with
  | Plain => None
  | Input dv _ _ _ _ _ _ _ => dv
  | Area dv dvs _ _ t => if dvs then dv else t
  end.
Definition plain (c : ctl) : bool := match c with Plain => true | _ => false end.

Lemma value_answer e s u s' x : sexec (SValue e) s = Ok u s' -> el_at s e = Some x -> u = UStr (reads_value (e_ctl x)).
Proof.
  intros H X. cbn [sexec] in H. unfold str in H. inv_bind H as r s9 H9. injection H as <- _. f_equal.
  unfold get_value in H9. inv_bind H9 as y s0 H0. apply get_el_inv in H0 as [-> Y]. rewrite X in Y. injection Y as <-.
  destruct (e_ctl x) as [|dv dvs v vs a b c d|dv dvs v vs t]; [discriminate| |]; cbn [reads_value]; destruct vs; inv_bind H9 as u1 s1 E1.
  - injection H9 as <- _; reflexivity.
  - injection H9 as <- _; reflexivity.
  - injection H9 as <- _; reflexivity.
  - inv_bind H9 as u2 s2 E2. inv_bind H9 as u3 s3 E3. injection H9 as <- _. reflexivity.
Qed.
Lemma default_answer e s u s' x : sexec (SDefault e) s = Ok u s' -> el_at s e = Some x -> u = UStr (reads_default (e_ctl x)).
Proof.
  intros H X. cbn [sexec] in H. unfold str in H. inv_bind H as r s9 H9. injection H as <- _. f_equal.
  unfold get_default in H9. inv_bind H9 as y s0 H0. apply get_el_inv in H0 as [-> Y]. rewrite X in Y. injection Y as <-.
  destruct (e_ctl x) as [|dv dvs v vs a b c d|dv dvs v vs t]; [discriminate| |]; cbn [reads_default]; try destruct dvs; inv_bind H9 as u1 s1 E1.
  - injection H9 as <- _; reflexivity.
  - injection H9 as <- _; reflexivity.
  - injection H9 as <- _; reflexivity.
  - inv_bind H9 as u2 s2 E2. inv_bind H9 as u3 s3 E3. injection H9 as <- _. reflexivity.
Qed.

Section Reads.
Variables (k : nat) (s : cst) (own lost : list nat).
Hypothesis (R : sreach k s own lost) (Bk : brief k).

Lemma runs o : slegal own s o -> calm s o -> fails_late o = false -> exists u s', sexec o s = Ok u s'.
Proof.
  intros L C F. destruct (step_any s own lost _ (reach_inv _ _ _ _ R Bk)) with (o := o)
    as [(u & s2 & E & _)|(x & s2 & E & _)]; auto; [unfold brief, two32 in *; lia|eauto|]. exfalso. exact (no_fail _ F _ _ _ E).
Qed.
Lemma is_ctl e x : el_at s e = Some x -> plain (e_ctl x) = false -> input s e \/ area s e.
Proof.
  intros X P. destruct (e_ctl x) as [|dv dvs v vs a b c d|dv dvs v vs t] eqn:C; [discriminate|left|right].
  - exists x, dv, dvs, v, vs, a, b, c, d. auto.
  - exists x, dv, dvs, v, vs, t. auto.
Qed.
Lemma read_value e x : el_at s e = Some x -> plain (e_ctl x) = false ->
  exists s', sexec (SValue e) s = Ok (UStr (reads_value (e_ctl x))) s'.
Proof.
  intros X P. destruct (runs (SValue e) (is_ctl _ _ X P) Logic.I eq_refl) as (u & s' & E).
  exists s'. rewrite E. rewrite (value_answer _ _ _ _ _ E X). reflexivity.
Qed.
Lemma read_default e x : el_at s e = Some x -> plain (e_ctl x) = false ->
  exists s', sexec (SDefault e) s = Ok (UStr (reads_default (e_ctl x))) s'.
Proof.
  intros X P. destruct (runs (SDefault e) (is_ctl _ _ X P) Logic.I eq_refl) as (u & s' & E).
  exists s'. rewrite E. rewrite (default_answer _ _ _ _ _ E X). reflexivity.
Qed.
Lemma read_checked e : input s e -> exists x s', el_at s e = Some x /\
  sexec (SChecked e) s = Ok (UBool match e_ctl x with Input _ _ _ _ dc _ ck cks => if cks then ck else dc | _ => false end) s' /\
  sexec (SDChecked e) s = Ok (UBool match e_ctl x with Input _ _ _ _ dc _ _ _ => dc | _ => false end) s'.
Proof.
  intros (x & dv & dvs & v & vs & a & b & c & d & X & C). exists x, s. split; [exact X|]. rewrite C. cbn [sexec].
  unfold get_checked, get_dchecked. split; unfold bind at 1; rewrite (bind_ok _ _ _ _ _ (get_el_ok _ _ _ X)), C; reflexivity.
Qed.
End Reads.

Lemma ok_then k s own lost o u s1 : sreach k s own lost -> slegal own s o -> calm s o -> sexec o s = Ok u s1 ->
  exists lost1, sreach (S k) s1 (own_after own o u) lost1.
Proof. intros R L C E. eexists. exact (sr_ok _ _ _ _ _ _ _ R L C E). Qed.
Lemma spares_target e o : spares e o = true -> target o <> Some e.
Proof. destruct o; cbn [spares target]; intros H Z; try discriminate; injection Z as ->; rewrite Nat.eqb_refl in H; discriminate. Qed.
Lemma done_answer o s u s' : sexec o s = Ok u s' ->
  match o with SSetValue _ _ | SSetDefault _ _ | SSetText _ _ | SAttr _ _ _ | SSetChecked _ _ => u = UDone | _ => True end.
Proof. destruct o; auto; cbn [sexec]; unfold done; intro H; inv_bind H as r s9 H9; injection H as <- _; reflexivity. Qed.

(** ** Values *)
Definition val_is (v : option nat) (c : ctl) : Prop :=
  match c with Input _ _ w true _ _ _ _ => w = v | Area _ _ w true _ => w = v | _ => False end.
Lemma val_kept e v o s c : keeps_value e o = true -> target o = Some e -> val_is v c -> val_is v (ctl_after s o c).
Proof.
  intros K T P. destruct c as [|dv dvs w vs a b ck d|dv dvs w vs t]; [destruct P| |]; destruct vs; try (destruct P; fail);
    destruct o; try discriminate T; cbn [ctl_after]; try exact P; try (injection T as ->; cbn [keeps_value] in K; rewrite Nat.eqb_refl in K; discriminate K).
  - cbv zeta. destruct (is_value _ && negb dvs); exact P.
  - destruct dvs; exact P.
Qed.
Lemma set_value_read k s own lost e v s1 u os s2 own2 : sreach k s own lost -> slegal own s (SSetValue e v) ->
  sexec (SSetValue e v) s = Ok u s1 -> smore s1 own os s2 own2 -> forallb (keeps_value e) os = true ->
  brief (S k + length os) -> exists s3, sexec (SValue e) s2 = Ok (UStr v) s3.
Proof.
  intros R L E M F Bk. assert (U := done_answer _ _ _ _ E). cbn in U. subst u.
  destruct (ok_then _ _ _ _ _ _ _ R L Logic.I E) as [lost1 R1]. cbn [own_after] in R1.
  destruct (more_reach _ _ _ _ _ _ _ M R1) as [lost2 R2].
  destruct (target_els _ _ _ _ e E eq_refl) as (x & X & _).
  destruct (more_ctl (val_is v) (keeps_value e) e) with (4 := F) (3 := M) as (y & Y & P).
  - intros o K ->. cbn in K. rewrite Nat.eqb_refl in K. discriminate.
  - intros. eapply val_kept; eauto.
  - eexists. split; [exact (this_after _ _ _ _ _ _ E eq_refl ltac:(discriminate) X)|]. cbn [with_ctl e_ctl].
    destruct L as [_ [(z & ? & ? & ? & ? & ? & ? & ? & ? & Z & C)|(z & ? & ? & ? & ? & ? & Z & C)]];
      rewrite X in Z; injection Z as <-; rewrite C; reflexivity.
  - destruct (read_value _ _ _ _ R2 Bk e y Y) as [s3 E3].
    + destruct (e_ctl y); [destruct P|reflexivity|reflexivity].
    + exists s3. rewrite E3. repeat f_equal. destruct (e_ctl y) as [|? ? w [|] ? ? ? ?|? ? w [|] ?]; cbn in P |- *; tauto.
Qed.

Definition def_is (v : option nat) (c : ctl) : Prop :=
  match c with Input w true _ _ _ _ _ _ => w = v | Area w true _ _ _ => w = v | _ => False end.
Lemma def_kept e v o s c : keeps_default e o = true -> target o = Some e -> def_is v c -> def_is v (ctl_after s o c).
Proof.
  intros K T P. destruct c as [|dv dvs w vs a b ck d|dv dvs w vs t]; [destruct P| |]; destruct dvs; try (destruct P; fail);
    destruct o; try discriminate T; cbn [ctl_after]; try exact P; try (injection T as ->; cbn [keeps_default] in K; rewrite Nat.eqb_refl in K; discriminate K).
  - cbv zeta. rewrite andb_false_r. exact P.
  - destruct vs; exact P.
Qed.
Lemma def_read k s own lost e v os s2 own2 : sreach k s own lost -> (exists x, el_at s e = Some x /\ def_is v (e_ctl x)) ->
  smore s own os s2 own2 -> forallb (keeps_default e) os = true ->
  brief (k + length os) -> exists s3, sexec (SDefault e) s2 = Ok (UStr v) s3.
Proof.
  intros R X M F Bk. destruct (more_reach _ _ _ _ _ _ _ M R) as [lost2 R2].
  destruct (more_ctl (def_is v) (keeps_default e) e) with (4 := F) (3 := M) as (y & Y & P).
  - intros o K ->. cbn in K. rewrite Nat.eqb_refl in K. discriminate.
  - intros. eapply def_kept; eauto.
  - exact X.
  - destruct (read_default _ _ _ _ R2 Bk e y Y) as [s3 E3].
    + destruct (e_ctl y); [destruct P|reflexivity|reflexivity].
    + exists s3. rewrite E3. repeat f_equal. destruct (e_ctl y) as [|w [|] ? ? ? ? ? ?|w [|] ? ? ?]; cbn in P |- *; tauto.
Qed.
Lemma set_default_read k s own lost e v s1 u os s2 own2 : sreach k s own lost -> slegal own s (SSetDefault e v) ->
  sexec (SSetDefault e v) s = Ok u s1 -> smore s1 own os s2 own2 -> forallb (keeps_default e) os = true ->
  brief (S k + length os) -> exists s3, sexec (SDefault e) s2 = Ok (UStr v) s3.
Proof.
  intros R L E M F Bk. assert (U := done_answer _ _ _ _ E). cbn in U. subst u.
  destruct (ok_then _ _ _ _ _ _ _ R L Logic.I E) as [lost1 R1]. cbn [own_after] in R1.
  destruct (target_els _ _ _ _ e E eq_refl) as (x & X & _).
  apply (def_read _ _ _ _ e v _ _ _ R1) with (3 := F) (2 := M); [|exact Bk].
  eexists. split; [exact (this_after _ _ _ _ _ _ E eq_refl ltac:(discriminate) X)|]. cbn [with_ctl e_ctl].
  destruct L as [_ [(z & ? & ? & ? & ? & ? & ? & ? & ? & Z & C)|(z & ? & ? & ? & ? & ? & Z & C)]];
      rewrite X in Z; injection Z as <-; rewrite C; reflexivity.
Qed.

(** ** From the creation of an element *)
Lemma made_els o s e s1 : makes o -> sexec o s = Ok (UEl e) s1 -> exists x d, el_at s1 e = Some x /\ e_ctl x = ctl_of d.
Proof.
  intros K E. assert (T : target o = None) by (destruct o; cbn in K; tauto).
  destruct (free_els _ _ _ _ E T) as [P|(x & P & U & D & _)].
  - exfalso. destruct o; try (destruct K; fail); cbn [sexec] in E; inv_bind E as r s9 H9; injection E as <- <-.
    + destruct (create_els _ _ _ _ _ _ H9) as (x & d & X & _). rewrite X in P. apply (f_equal (@length _)) in P. rewrite app_length in P. cbn in P. lia.
    + unfold create_element_ns in H9. inv_bind H9 as pl s2 E1. apply es_split in E1. inv_bind H9 as rr s3 E2. unfold try in E2.
      destruct (create_internal (snd pl) ns (fst pl) s2) as [e s4|e s4|] eqn:Q; [| |discriminate]; injection E2 as <- <-.
      * destruct (create_els _ _ _ _ _ _ Q) as (x & d & X & _). inv_bind H9 as u1 s5 E3. inv_bind H9 as u2 s6 E4.
        apply es_unref in E3. apply es_ounref in E4. injection H9 as _ <-.
        apply (f_equal (@length _)) in P. rewrite E4, E3, X, app_length, E1 in P. cbn in P. lia.
      * inv_bind H9 as u1 s5 E3. inv_bind H9 as u2 s6 E4. discriminate.
  - injection U as ->. destruct D as [d D]; [intros e ->; destruct K|]. exists x, d. split; [|exact D].
    unfold el_at. rewrite P, app_nth2 by lia. rewrite Nat.sub_diag. reflexivity.
Qed.
Lemma of_cases d : ctl_of d = Input None false None false false false false false \/ ctl_of d = Area None false None false None \/ ctl_of d = Plain.
Proof. unfold ctl_of. destruct (bytes_eqb d n_input); [auto|]. destruct (bytes_eqb d n_textarea); auto. Qed.

Definition unset (c : ctl) : Prop :=
  match c with Input _ _ _ vs _ _ _ _ => vs = false | Area _ _ _ vs _ => vs = false | Plain => True end.
Lemma unset_kept e o s c : keeps_value e o = true -> target o = Some e -> unset c -> unset (ctl_after s o c).
Proof.
  intros K T P. destruct c as [|dv dvs w vs a b ck d|dv dvs w vs t]; cbn [unset] in P; [destruct o; exact Logic.I| |]; subst vs;
    destruct o; try discriminate T; cbn [ctl_after]; try reflexivity; try (injection T as ->; cbn [keeps_value] in K; rewrite Nat.eqb_refl in K; discriminate K).
  - cbv zeta. destruct (is_value _ && negb dvs); reflexivity.
  - destruct dvs; reflexivity.
Qed.
(** The value of an INPUT that was never set is the default value. *)
Lemma unset_read k s own lost o e s1 os s2 own2 : sreach k s own lost -> slegal own s o -> calm s o -> makes o ->
  sexec o s = Ok (UEl e) s1 -> smore s1 own os s2 own2 -> forallb (keeps_value e) os = true -> brief (S k + length os) ->
  input s2 e -> exists v s3 s4, sexec (SValue e) s2 = Ok (UStr v) s3 /\ sexec (SDefault e) s2 = Ok (UStr v) s4.
Proof.
  intros R L C K E M F Bk IN. destruct (ok_then _ _ _ _ _ _ _ R L C E) as [lost1 R1].
  assert (own_after own o (UEl e) = own) as OA by (destruct o; try reflexivity; destruct K). rewrite OA in R1.
  destruct (more_reach _ _ _ _ _ _ _ M R1) as [lost2 R2].
  destruct (made_els _ _ _ _ K E) as (x & d & X & D).
  destruct (more_ctl unset (keeps_value e) e) with (4 := F) (3 := M) as (y & Y & P).
  - intros o' K' ->. cbn in K'. rewrite Nat.eqb_refl in K'. discriminate.
  - intros. eapply unset_kept; eauto.
  - exists x. split; [exact X|]. rewrite D. destruct (of_cases d) as [Z|[Z|Z]]; rewrite Z; reflexivity || exact Logic.I.
  - destruct IN as (z & dv & dvs & v & vs & a & b & c & f & Z & CZ). rewrite Y in Z. injection Z as <-.
    rewrite CZ in P. cbn in P. subst vs.
    destruct (read_value _ _ _ _ R2 Bk e y Y) as [s3 E3]; [rewrite CZ; reflexivity|].
    destruct (read_default _ _ _ _ R2 Bk e y Y) as [s4 E4]; [rewrite CZ; reflexivity|]. rewrite CZ in E3, E4.
    exists dv, s3, s4. split; [exact E3|exact E4].
Qed.

(** Calls that spare an element. *)
Lemma spared e s own os s' own' x : smore s own os s' own' -> forallb (spares e) os = true -> el_at s e = Some x -> el_at s' e = Some x.
Proof.
  intro M. induction M as [s own|s own o u s1 os s2 own2 L C X M IH|s own o y s1 os s2 own2 L C X M IH]; intros F E; [exact E| |];
    cbn [forallb] in F; apply andb_prop in F as [F1 F2]; apply IH; try exact F2.
  - exact (other_stays _ _ _ _ _ _ X (spares_target _ _ F1) E).
  - rewrite (same_at _ _ _ (exc_els _ _ _ _ X)). exact E.
Qed.
Lemma low_value b : map dolower b = n_value -> is_value b = true.
Proof.
  intro H. unfold is_value, string_caseless_isequal. cbn [or_empty d_interned d_bytes andb].
  assert (L : length b = 5) by (rewrite <- (map_length dolower), H; reflexivity). rewrite L. cbn [length n_value negb Nat.eqb].
  destruct b as [|b1 [|b2 [|b3 [|b4 [|b5 [|b6 b]]]]]]; try discriminate L. cbn [map] in H. unfold n_value in *.
  injection H as H1 H2 H3 H4 H5. cbn [caseless_loop]. rewrite H1, H2, H3, H4, H5. reflexivity.
Qed.
(** The default value of an INPUT is the first value its attribute is given. *)
Lemma first_attr k s own lost o e s1 os s2 own2 n w s3 os' s4 own4 : sreach k s own lost -> slegal own s o -> calm s o -> makes o ->
  sexec o s = Ok (UEl e) s1 -> smore s1 own os s2 own2 -> forallb (spares e) os = true -> input s2 e ->
  slegal own2 s2 (SAttr e n w) -> named s2 n n_value -> sexec (SAttr e n w) s2 = Ok UDone s3 ->
  smore s3 own2 os' s4 own4 -> forallb (keeps_default e) os' = true -> brief (S (S k + length os) + length os') ->
  exists s5, sexec (SDefault e) s4 = Ok (UStr (Some w)) s5.
Proof.
  intros R L C K E M F IN LA NA EA M' F' Bk. destruct (ok_then _ _ _ _ _ _ _ R L C E) as [lost1 R1].
  assert (own_after own o (UEl e) = own) as OA by (destruct o; try reflexivity; destruct K). rewrite OA in R1.
  destruct (more_reach _ _ _ _ _ _ _ M R1) as [lost2 R2].
  destruct (ok_then _ _ _ _ _ _ _ R2 LA Logic.I EA) as [lost3 R3]. cbn [own_after] in R3.
  destruct (made_els _ _ _ _ K E) as (x & d & X & D). apply (spared _ _ _ _ _ _ _ M F) in X.
  apply (def_read _ _ _ _ e (Some w) _ _ _ R3) with (3 := F') (2 := M'); [|exact Bk].
  eexists. split; [exact (this_after _ _ _ _ _ _ EA eq_refl ltac:(discriminate) X)|]. cbn [with_ctl e_ctl].
  destruct IN as (z & dv & dvs & v & vs & a & b & c & f & Z & CZ). rewrite X in Z. injection Z as <-.
  rewrite D in *. destruct (of_cases d) as [Z|[Z|Z]]; rewrite Z in *; try discriminate. cbn [ctl_after].
  destruct NA as (nm & T & LV). rewrite T, (low_value _ LV). reflexivity.
Qed.

(** TEXTAREA: the text before the value is set is the default value ... *)
Lemma area_default k s own lost o e s1 os s2 own2 t s3 v s4 os' s5 own5 : sreach k s own lost -> slegal own s o -> calm s o -> makes o ->
  sexec o s = Ok (UEl e) s1 -> smore s1 own os s2 own2 -> forallb (spares e) os = true ->
  slegal own2 s2 (SSetText e t) -> sexec (SSetText e t) s2 = Ok UDone s3 ->
  slegal own2 s3 (SSetValue e v) -> sexec (SSetValue e v) s3 = Ok UDone s4 ->
  smore s4 own2 os' s5 own5 -> forallb (keeps_default e) os' = true -> brief (S (S (S k + length os)) + length os') ->
  exists s6, sexec (SDefault e) s5 = Ok (UStr t) s6.
Proof.
  intros R L C K E M F LT ET LV EV M' F' Bk. destruct (ok_then _ _ _ _ _ _ _ R L C E) as [lost1 R1].
  assert (own_after own o (UEl e) = own) as OA by (destruct o; try reflexivity; destruct K). rewrite OA in R1.
  destruct (more_reach _ _ _ _ _ _ _ M R1) as [lost2 R2].
  destruct (ok_then _ _ _ _ _ _ _ R2 LT Logic.I ET) as [lost3 R3]. cbn [own_after] in R3.
  destruct (ok_then _ _ _ _ _ _ _ R3 LV Logic.I EV) as [lost4 R4]. cbn [own_after] in R4.
  destruct (made_els _ _ _ _ K E) as (x & d & X & D). apply (spared _ _ _ _ _ _ _ M F) in X.
  assert (Y := this_after _ _ _ _ _ _ ET eq_refl ltac:(discriminate) X).
  apply (def_read _ _ _ _ e t _ _ _ R4) with (3 := F') (2 := M'); [|exact Bk].
  eexists. split; [exact (this_after _ _ _ _ _ _ EV eq_refl ltac:(discriminate) Y)|]. cbn [with_ctl e_ctl].
  destruct LT as [_ (z & dv & dvs & v' & vs & t' & Z & CZ)]. rewrite X in Z. injection Z as <-.
  rewrite D in *. destruct (of_cases d) as [Z|[Z|Z]]; rewrite Z in *; try discriminate. reflexivity.
Qed.
(** ... but once the value was read there is no default value. *)
Lemma area_no_default k s own lost o e s1 os s2 own2 t s3 u s4 os' s5 own5 : sreach k s own lost -> slegal own s o -> calm s o -> makes o ->
  sexec o s = Ok (UEl e) s1 -> smore s1 own os s2 own2 -> forallb (spares e) os = true ->
  slegal own2 s2 (SSetText e t) -> sexec (SSetText e t) s2 = Ok UDone s3 ->
  sexec (SValue e) s3 = Ok u s4 -> smore s4 (own_after own2 (SValue e) u) os' s5 own5 -> forallb (keeps_default e) os' = true ->
  brief (S (S (S k + length os)) + length os') ->
  u = UStr t /\ exists s6, sexec (SDefault e) s5 = Ok (UStr None) s6.
Proof.
  intros R L C K E M F LT ET EV M' F' Bk. destruct (ok_then _ _ _ _ _ _ _ R L C E) as [lost1 R1].
  assert (own_after own o (UEl e) = own) as OA by (destruct o; try reflexivity; destruct K). rewrite OA in R1.
  destruct (more_reach _ _ _ _ _ _ _ M R1) as [lost2 R2].
  destruct (ok_then _ _ _ _ _ _ _ R2 LT Logic.I ET) as [lost3 R3]. cbn [own_after] in R3.
  destruct (made_els _ _ _ _ K E) as (x & d & X & D). apply (spared _ _ _ _ _ _ _ M F) in X.
  assert (Y := this_after _ _ _ _ _ _ ET eq_refl ltac:(discriminate) X). cbn [with_ctl e_ctl] in Y.
  destruct LT as [_ (z & dv & dvs & v' & vs & t' & Z & CZ)]. rewrite X in Z. injection Z as <-.
  rewrite D in *. destruct (of_cases d) as [Z|[Z|Z]]; rewrite Z in *; try discriminate. cbn [ctl_after] in Y.
  assert (LV : slegal own2 s3 (SValue e)).
  { right. eexists _, _, _, _, _, _. split; [exact Y|reflexivity]. }
  destruct (ok_then _ _ _ _ _ _ _ R3 LV Logic.I EV) as [lost4 R4].
  split; [exact (value_answer _ _ _ _ _ EV Y)|].
  apply (def_read _ _ _ _ e None _ _ _ R4) with (3 := F') (2 := M'); [|exact Bk].
  eexists. split; [exact (this_after _ _ _ _ _ _ EV eq_refl ltac:(discriminate) Y)|]. reflexivity.
Qed.

(** ** Checked *)
Definition chk_is (v : bool) (c : ctl) : Prop := match c with Input _ _ _ _ _ _ w true => w = v | _ => False end.
Lemma chk_kept e v o s c : keeps_checked e o = true -> target o = Some e -> chk_is v c -> chk_is v (ctl_after s o c).
Proof.
  intros K T P. destruct c as [|dv dvs w vs a b ck d|dv dvs w vs t]; [destruct P| |destruct P]; destruct d; try (destruct P; fail);
    destruct o; try discriminate T; cbn [ctl_after]; try exact P; try (injection T as ->; cbn [keeps_checked] in K; rewrite Nat.eqb_refl in K; discriminate K).
  cbv zeta. destruct (is_value _ && negb dvs); exact P.
Qed.
Lemma set_checked_read k s own lost e b s1 u os s2 own2 : sreach k s own lost -> slegal own s (SSetChecked e b) ->
  sexec (SSetChecked e b) s = Ok u s1 -> smore s1 own os s2 own2 -> forallb (keeps_checked e) os = true ->
  exists s3, sexec (SChecked e) s2 = Ok (UBool b) s3.
Proof.
  intros R L E M F. destruct (target_els _ _ _ _ e E eq_refl) as (x & X & _).
  destruct (more_ctl (chk_is b) (keeps_checked e) e) with (4 := F) (3 := M) as (y & Y & P).
  - intros o K ->. cbn in K. rewrite Nat.eqb_refl in K. discriminate.
  - intros. eapply chk_kept; eauto.
  - eexists. split; [exact (this_after _ _ _ _ _ _ E eq_refl ltac:(discriminate) X)|]. cbn [with_ctl e_ctl].
    destruct L as (z & ? & ? & ? & ? & ? & ? & ? & ? & Z & C). rewrite X in Z; injection Z as <-; rewrite C; reflexivity.
  - destruct (e_ctl y) as [|? ? ? ? ? ? ? [|]|] eqn:C; try (destruct P; fail). cbn in P. subst.
    exists s2. cbn [sexec]. unfold get_checked. unfold bind at 1. rewrite (bind_ok _ _ _ _ _ (get_el_ok _ _ _ Y)), C. reflexivity.
Qed.

(** ** Copies *)
Lemma copy_reads k s own lost e c s1 : sreach k s own lost -> brief (S k) -> there s e -> sexec (SCopy e) s = Ok (UEl c) s1 -> input s e ->
  input s1 c /\ c <> e /\
  exists v d s2 s3 s4 s5, sexec (SValue e) s = Ok (UStr v) s2 /\ sexec (SValue c) s1 = Ok (UStr v) s3 /\
    sexec (SDefault e) s = Ok (UStr d) s4 /\ sexec (SDefault c) s1 = Ok (UStr d) s5.
Proof.
  intros R Bk TH E IN. destruct (ok_then _ _ _ _ _ _ _ R (TH : slegal own s (SCopy e)) Logic.I E) as [lost1 R1]. cbn [own_after] in R1.
  assert (Bk0 : brief k) by (unfold brief, two32 in *; lia).
  destruct IN as (x & dv & dvs & v & vs & a & b & ck & f & X & CX).
  destruct (free_els _ _ _ _ E eq_refl) as [P|(y & P & U & _ & D)].
  - exfalso. cbn [sexec] in E. inv_bind E as r s9 H9. injection E as <- <-. unfold copy_el in H9.
    inv_bind H9 as x' s2 E1. apply get_el_inv in E1 as [-> X']. inv_bind H9 as u1 s2 E1. inv_bind H9 as u2 s3 E2.
    inv_bind H9 as u3 s4 E3. inv_bind H9 as cc s5 E4. apply es_ref in E1. apply es_oref in E2. apply es_oref in E3.
    assert (c_els s5 = c_els s4) by (destruct (e_ctl x'); cbn [copy_ctl] in E4; esame E4; assumption).
    injection H9 as _ <-. cbn [set_els c_els] in P. apply (f_equal (@length _)) in P. rewrite app_length in P.
    replace (c_els s5) with (c_els s) in P by congruence. cbn in P. lia.
  - injection U as ->. destruct (D e eq_refl) as (y' & Y' & DY). rewrite X in Y'. injection Y' as <-. rewrite CX in DY.
    assert (Y : el_at s1 (length (c_els s)) = Some y).
    { unfold el_at. rewrite P, app_nth2 by lia. rewrite Nat.sub_diag. reflexivity. }
    split; [|split].
    + exists y, dv, dvs, v, vs, a, b, ck, f. auto.
    + assert (L := el_len _ _ _ X). lia.
    + destruct (read_value _ _ _ _ R Bk0 e x X) as [s2 E2]; [rewrite CX; reflexivity|].
      destruct (read_value _ _ _ _ R1 Bk _ y Y) as [s3 E3]; [rewrite DY; reflexivity|].
      destruct (read_default _ _ _ _ R Bk0 e x X) as [s4 E4]; [rewrite CX; reflexivity|].
      destruct (read_default _ _ _ _ R1 Bk _ y Y) as [s5 E5]; [rewrite DY; reflexivity|].
      rewrite CX in E2, E4. rewrite DY in E3, E5. exists (if vs then v else dv), dv, s2, s3, s4, s5. split; [exact E2|]. split; [exact E3|]. split; [exact E4|exact E5].
Qed.
