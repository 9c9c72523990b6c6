(** Listener lists: the invariant and the effect of adding and removing. *)
From Coq Require Import List Arith NArith Bool Lia Permutation.
From Verif Require Import Base RingModel RingSpec RingProofs EventModel EventSpec StringProofs.
Import ListNotations.
Local Open Scope dom_scope.

Lemma upd_same : forall A (f : nat -> A) i a, upd f i a i = a.
Proof. intros. unfold upd. rewrite Nat.eqb_refl. auto. Qed.
Lemma upd_other : forall A (f : nat -> A) i a j, j <> i -> upd f i a j = f j.
Proof. intros. unfold upd. apply Nat.eqb_neq in H. rewrite H. auto. Qed.

(** * Rings as lists including the head *)
Definition qring (h : rheap) (l : list nat) : Prop :=
  match l with [] => True | a :: m => ring h a m end.
Lemma ring_rotate : forall h a l1 x l2, ring h a (l1 ++ x :: l2) -> ring h x (l2 ++ a :: l1).
Proof.
  intros h a l1 x l2 [N C]. split.
  - apply Permutation_NoDup with (l := (a :: l1) ++ x :: l2); auto.
    change (x :: l2 ++ a :: l1) with ((x :: l2) ++ a :: l1). apply Permutation_app_comm.
  - rewrite <- app_assoc in C. change (a :: l1 ++ (x :: l2) ++ [a]) with ((a :: l1) ++ x :: (l2 ++ [a])) in C.
    apply chain_app in C. destruct C as [A B]. rewrite <- app_assoc.
    change (x :: l2 ++ (a :: l1) ++ [x]) with ((x :: l2) ++ a :: (l1 ++ [x])). apply chain_app. split; auto.
Qed.
Lemma qring_rotate : forall h l1 l2, qring h (l1 ++ l2) -> qring h (l2 ++ l1).
Proof.
  intros h l1 l2 Q. destruct l2 as [|x l2]; [rewrite app_nil_r in Q; auto|].
  destruct l1 as [|a l1]; [rewrite app_nil_r; auto|]. cbn [qring app] in *. apply ring_rotate. auto.
Qed.
Lemma qring_nodup : forall h l, qring h l -> NoDup l.
Proof. intros h [|a l] Q; [constructor|apply Q]. Qed.
Lemma qring_next : forall h l1 x l2, qring h (l1 ++ x :: l2) -> exists c, h x = Some c /\ snd c = Some (hd x (l2 ++ l1)).
Proof.
  intros h l1 x l2 Q. apply qring_rotate in Q. destruct Q as [_ C].
  fold (app l2 l1) in C. destruct (l2 ++ l1) as [|y r]; simpl in C; destruct C as [[(c & A & B) _] _]; exists c; auto.
Qed.
Lemma qring_del : forall h x r, qring h (x :: r) ->
  exists h', list_del x h = Ok tt h' /\ qring h' r /\ (forall j, ~ In j (x :: r) -> h' j = h j).
Proof.
  intros h x r Q. destruct r as [|b m].
  - cbn [qring] in Q. destruct (ring_prev _ _ _ Q) as (c & A & B). destruct Q as [_ [[(c' & A' & B') _] _]]. rewrite A in A'. injection A' as <-.
    unfold pre in B. simpl in B. destruct c as [p nx]; simpl in *; subst.
    unfold list_del. rewrite (rbind_ok _ _ _ _ _ _ _ _ (rload_ok _ _ _ A)). cbn [fst snd].
    rewrite (rbind_ok _ _ _ _ _ _ _ _ (rstore_ok _ _ _ _ A)).
    erewrite (rbind_ok _ _ _ (rload _)) by (apply rload_ok; apply rset_same). cbn [fst snd set_rnext].
    erewrite (rbind_ok _ _ _ (rstore _ _)) by (apply rstore_ok; apply rset_same).
    erewrite (rbind_ok _ _ _ (rstore _ _)) by (apply rstore_ok; apply rset_same).
    erewrite rstore_ok by apply rset_same. eexists. split; [reflexivity|]. split; [exact I|].
    intros j J. assert (j <> x) by (intros ->; apply J; simpl; auto). rewrite !rset_other; auto.
  - assert (R : ring h b (m ++ [x])). { apply (ring_rotate h x [] b m Q). }
    destruct (del_ok h b m x [] R) as (h' & A & B & _ & D). exists h'. split; auto. rewrite app_nil_r in B. split; auto.
    intros j J. apply D. intros K. apply J. simpl in *. rewrite in_app_iff in K. simpl in K. tauto.
Qed.
Lemma qring_append : forall h l e ce, qring h l -> l <> [] -> h e = Some ce -> ~ In e l ->
  exists h', list_append (hd 0 l) e h = Ok tt h' /\ qring h' (l ++ [e]) /\ (forall j, j <> e -> ~ In j l -> h' j = h j).
Proof.
  intros h [|a m] e ce Q NE He NI; [congruence|]. destruct (append_ok h a m e ce Q He NI) as (h' & A & B & C).
  exists h'. split; auto. split; auto. intros j J K. apply C. simpl in *. intuition congruence.
Qed.
Lemma qring_frame : forall h h' l, qring h l -> (forall j, In j l -> h' j = h j) -> qring h' l.
Proof. intros h h' [|a m] Q F; auto. eapply ring_frame; eauto. Qed.
Lemma qring_live : forall h l x, qring h l -> In x l -> exists c, h x = Some c.
Proof. intros h [|a m] x Q I; [destruct I|]. eapply ring_live; eauto. Qed.

(** * The invariant *)
Record einv (s : estate) (q : nat -> list nat) : Prop := {
  iv_head : forall n, es_head s n = hd_error (q n);
  iv_ring : forall n, qring (es_ring s) (q n);
  iv_info : forall n x, In x (q n) -> es_info s x <> None;
  iv_fresh : forall n x, In x (q n) -> x < es_fresh s;
  iv_disj : forall n m x, In x (q n) -> In x (q m) -> n = m
}.
(** Only the registrations matter. *)
Lemma einv_ext : forall s s' q, einv s q -> es_ring s' = es_ring s -> es_info s' = es_info s -> es_fresh s' = es_fresh s -> es_head s' = es_head s -> einv s' q.
Proof. intros s s' q [A B C D E] R I F H. constructor; intros; rewrite ?R, ?I, ?F, ?H; eauto. Qed.
Lemma einv_blank : forall p f h a ev, einv (blank p f h a ev) (fun _ => []).
Proof. intros. constructor; simpl; intros; auto; contradiction. Qed.

Lemma bounded_length : forall l n, NoDup l -> (forall x, In x l -> x < n) -> length l <= n.
Proof.
  intros l n N B. rewrite <- (seq_length n 0). apply NoDup_incl_length; auto. intros x I. apply in_seq. specialize (B x I). lia.
Qed.
Lemma einv_length : forall s q n, einv s q -> length (q n) <= es_fresh s.
Proof. intros s q n V. apply bounded_length; [eapply qring_nodup; apply (iv_ring _ _ V)|apply (iv_fresh _ _ V)]. Qed.

(** The contents of the entries. *)
Definition contents (s : estate) (l : list nat) (c : list entry) : Prop := map (es_info s) l = map Some c.
Lemma contents_exist : forall s l, (forall x, In x l -> es_info s x <> None) -> exists c, contents s l c.
Proof.
  intros s l. induction l as [|x l]; intros H.
  - exists []. reflexivity.
  - destruct IHl as [c C]; [intros; apply H; simpl; auto|]. destruct (es_info s x) as [i|] eqn:E; [|exfalso; apply (H x); simpl; auto].
    exists (i :: c). unfold contents in *. simpl. congruence.
Qed.
Lemma map_some_inj : forall A (a b : list A), map Some a = map Some b -> a = b.
Proof. induction a; destruct b; simpl; intros H; try discriminate; auto. injection H as -> H. f_equal; auto. Qed.
Lemma contents_app : forall s l1 l2 c1 c2, contents s l1 c1 -> contents s l2 c2 -> contents s (l1 ++ l2) (c1 ++ c2).
Proof. unfold contents. intros. rewrite !map_app. congruence. Qed.
Lemma contents_app_inv : forall s l1 l2 c, contents s (l1 ++ l2) c -> exists c1 c2, c = c1 ++ c2 /\ contents s l1 c1 /\ contents s l2 c2.
Proof.
  unfold contents. induction l1 as [|x l1]; intros l2 c H.
  - exists [], c. auto.
  - destruct c as [|i c]; simpl in H; [discriminate|]. injection H as E H. destruct (IHl1 _ _ H) as (c1 & c2 & -> & A & B).
    exists (i :: c1), c2. simpl. split; auto. split; auto. congruence.
Qed.
Lemma contents_frame : forall s s' l c, (forall x, In x l -> es_info s' x = es_info s x) -> contents s l c -> contents s' l c.
Proof. unfold contents. intros s s' l c F H. rewrite <- H. apply map_ext_in. auto. Qed.

Lemma rwalk_fun : forall next h stop a l, rwalk next h stop a l -> forall m, rwalk next h stop a m -> m = l.
Proof.
  induction 1 as [a c E N|a c b l E N NE W IH]; intros m W'; inversion W' as [a' c' E' N'|a' c' b' m' E' N' NE' W2]; subst; auto; try congruence.
  assert (b' = b) by congruence. subst. f_equal. auto.
Qed.
Lemma listed_iff : forall s q n c, einv s q -> listed s n c <-> contents s (q n) c.
Proof.
  intros s q n c V. unfold listed, contents. rewrite (iv_head _ _ V). pose proof (iv_ring _ _ V n) as R. destruct (q n) as [|a m]; simpl.
  - split; [intros ->; auto|]. destruct c; simpl; auto; discriminate.
  - split.
    + intros (m' & H & E). assert (m' = m); [|subst; auto]. apply ring_holds in R.
      destruct H as (_ & W & _). destruct R as (_ & W' & _). eapply rwalk_fun; eauto.
    + intros E. exists m. split; auto. apply ring_holds; auto.
Qed.

(** * Adding *)
Lemma alloc_entry_eq : forall i s, alloc_entry i s = Ok (es_fresh s) (set_fresh S (set_info (fun f => upd f (es_fresh s) (Some i)) (set_ring (fun h => rset h (es_fresh s) (None, None)) s))).
Proof. reflexivity. Qed.
Lemma onring_ok : forall A (m : M rheap A) s a h, m (es_ring s) = Ok a h -> onring m s = Ok a (set_ring (fun _ => h) s).
Proof. intros. unfold onring. rewrite H. auto. Qed.

(** Everything but the registrations. *)
Record rest_same (s s' : estate) : Prop := {
  rs_parent : es_parent s' = es_parent s; rs_frag : es_frag s' = es_frag s; rs_host : es_host s' = es_host s;
  rs_ev : es_ev s' = es_ev s; rs_actions : es_actions s' = es_actions s; rs_log : es_log s' = es_log s }.

Lemma add_listener_ok : forall s q n ty l cap, einv s q ->
  exists s', add_listener n ty l cap s = Ok tt s' /\
    einv s' (upd q n (q n ++ [es_fresh s])) /\ rest_same s s' /\
    es_info s' (es_fresh s) = Some (mkEntry ty l cap) /\ (forall x, x <> es_fresh s -> es_info s' x = es_info s x).
Proof.
  intros s q n ty l cap V. unfold add_listener. set (e := es_fresh s).
  assert (NI : forall m, ~ In e (q m)). { intros m I. apply (iv_fresh _ _ V) in I. unfold e in I. lia. }
  rewrite (rbind_ok _ _ _ _ _ _ _ _ (alloc_entry_eq _ _)).
  destruct (init_ok (rset (es_ring s) e (None, None)) e (None, None) (rset_same _ _ _)) as (h1 & A1 & B1 & C1).
  erewrite (rbind_ok _ _ _ (onring _)) by (apply onring_ok; exact A1).
  unfold bind at 1, get_head. cbn [es_head set_ring set_fresh set_info]. rewrite (iv_head _ _ V).
  assert (F1 : forall j, j <> e -> h1 j = es_ring s j). { intros j J. rewrite C1; auto. apply rset_other; auto. }
  assert (FRESH : forall m x, In x (upd q n (q n ++ [e]) m) -> x < S (es_fresh s)).
  { intros m x I. unfold upd in I. destruct (Nat.eqb m n); [apply in_app_iff in I; destruct I as [I|[<-|[]]]|]; try (apply (iv_fresh _ _ V) in I; lia); unfold e; lia. }
  assert (DISJ : forall a b x, In x (upd q n (q n ++ [e]) a) -> In x (upd q n (q n ++ [e]) b) -> a = b).
  { intros a b x Ia Ib. unfold upd in Ia, Ib. destruct (Nat.eqb a n) eqn:Ea, (Nat.eqb b n) eqn:Eb.
    - apply Nat.eqb_eq in Ea, Eb. congruence.
    - apply in_app_iff in Ia. destruct Ia as [Ia|[<-|[]]].
      + apply Nat.eqb_eq in Ea. subst a. apply (iv_disj _ _ V n b x); auto.
      + exfalso; apply (NI _ Ib).
    - apply in_app_iff in Ib. destruct Ib as [Ib|[<-|[]]].
      + apply Nat.eqb_eq in Eb. subst b. apply (iv_disj _ _ V a n x); auto.
      + exfalso; apply (NI _ Ia).
    - apply (iv_disj _ _ V a b x); auto. }
  assert (INFO : forall m x, In x (upd q n (q n ++ [e]) m) -> upd (es_info s) e (Some (mkEntry ty l cap)) x <> None).
  { intros m x I. unfold upd at 1. destruct (Nat.eqb x e) eqn:Ex; [discriminate|]. apply Nat.eqb_neq in Ex.
    unfold upd in I. destruct (Nat.eqb m n); [apply in_app_iff in I; destruct I as [I|[<-|[]]]; [|congruence]|]; apply (iv_info _ _ V _ _ I). }
  destruct (hd_error (q n)) as [a|] eqn:HD.
  - destruct (q n) as [|a' m] eqn:Q; [discriminate|]. injection HD as ->.
    assert (QR : qring h1 (a :: m)). { rewrite <- Q. eapply qring_frame; [apply (iv_ring _ _ V)|]. intros j J. apply F1. intros ->. apply (NI _ J). }
    destruct (qring_append h1 (a :: m) e _ QR ltac:(discriminate) B1) as (h2 & A2 & B2 & C2); [rewrite <- Q; apply NI|].
    cbn [hd] in A2. erewrite onring_ok by exact A2. eexists. split; [reflexivity|].
    split; [|split; [constructor; reflexivity|split; [apply upd_same|intros; apply upd_other; auto]]].
    constructor; cbn [es_head es_ring es_info es_fresh set_ring set_fresh set_info]; auto.
    + intros m'. unfold upd. destruct (Nat.eqb m' n) eqn:E; [apply Nat.eqb_eq in E; subst; rewrite (iv_head _ _ V), Q; auto|apply (iv_head _ _ V)].
    + intros m'. unfold upd. destruct (Nat.eqb m' n) eqn:E; auto. apply Nat.eqb_neq in E.
      eapply qring_frame; [apply (iv_ring _ _ V)|]. intros j J. assert (j <> e) by (intros ->; apply (NI _ J)). rewrite C2; auto.
      rewrite <- Q. intros K. apply E. apply (iv_disj _ _ V m' n j); auto.
  - destruct (q n) as [|a' m] eqn:Q; [|discriminate]. cbn [app]. eexists. split; [reflexivity|].
    split; [|split; [constructor; reflexivity|split; [apply upd_same|intros; apply upd_other; auto]]].
    constructor; cbn [es_head es_ring es_info es_fresh set_ring set_fresh set_info set_head]; auto.
    + intros m'. unfold upd. destruct (Nat.eqb m' n) eqn:E; auto. apply (iv_head _ _ V).
    + intros m'. unfold upd. destruct (Nat.eqb m' n) eqn:E.
      * cbn [app qring]. apply ring_self; auto.
      * eapply qring_frame; [apply (iv_ring _ _ V)|]. intros j J. apply F1. intros ->. apply (NI _ J).
Qed.

(** * Removing *)
(** The list after removal of the first entry with [P]: what follows it comes
    first. *)
Fixpoint rot_remove {A} (P : A -> bool) (before l : list A) : list A :=
  match l with
  | [] => before
  | x :: r => if P x then r ++ before else rot_remove P (before ++ [x]) r
  end.
Definition entry_matches (s : estate) ty l cap (x : nat) : bool :=
  match es_info s x with Some i => matches ty l cap i | None => false end.

Lemma load_next_ok : forall s x c, es_ring s x = Some c -> load_next x s = Ok (snd c) s.
Proof.
  intros s x c H. unfold load_next. erewrite (rbind_ok _ _ _ (onring _)) by (apply onring_ok; apply rload_ok; exact H).
  destruct s; reflexivity.
Qed.
Lemma load_info_ok : forall s x i, es_info s x = Some i -> load_info x s = Ok i s.
Proof. intros. unfold load_info. rewrite H. auto. Qed.

Lemma remove_found : forall s q n l1 x l2, einv s q -> q n = l1 ++ x :: l2 ->
  exists s', (( (if opt_eqb Nat.eqb (Some (hd x (l2 ++ l1))) (Some x) then put_head n None else put_head n (Some (hd x (l2 ++ l1)))) ;;;
        onring (list_del x) ;;; free_entry x) s) = Ok tt s' /\
    einv s' (upd q n (l2 ++ l1)) /\ rest_same s s' /\ es_fresh s' = es_fresh s /\ (forall y, y <> x -> es_info s' y = es_info s y).
Proof.
  intros s q n l1 x l2 V Q. pose proof (iv_ring _ _ V n) as R. rewrite Q in R. pose proof (qring_nodup _ _ R) as ND.
  apply qring_rotate in R. cbn [app] in R. destruct (qring_del _ _ _ R) as (h' & A & B & C).
  assert (NX : ~ In x (l2 ++ l1)). { apply NoDup_remove_2 in ND. rewrite in_app_iff in *. tauto. }
  assert (HD : exists s1, (if opt_eqb Nat.eqb (Some (hd x (l2 ++ l1))) (Some x) then put_head n None else put_head n (Some (hd x (l2 ++ l1)))) s = Ok tt s1 /\
     s1 = set_head (fun f => upd f n (hd_error (l2 ++ l1))) s).
  { destruct (l2 ++ l1) as [|y r] eqn:E; simpl.
    - rewrite Nat.eqb_refl. eexists. split; reflexivity.
    - assert (y <> x) by (intros ->; apply NX; simpl; auto). apply Nat.eqb_neq in H. rewrite H. eexists. split; reflexivity. }
  destruct HD as (s1 & E1 & ->). rewrite (rbind_ok _ _ _ _ _ _ _ _ E1).
  erewrite (rbind_ok _ _ _ (onring _)) by (apply onring_ok; cbn [es_ring set_head]; exact A).
  unfold free_entry. eexists. split; [reflexivity|].
  assert (SUB : forall m y, In y (upd q n (l2 ++ l1) m) -> In y (q m)).
  { intros m y I. unfold upd in I. destruct (Nat.eqb m n) eqn:E; auto. apply Nat.eqb_eq in E. subst. rewrite Q. rewrite in_app_iff in *. simpl. tauto. }
  assert (NE : forall m y, In y (upd q n (l2 ++ l1) m) -> y <> x).
  { intros m y I ->. unfold upd in I. destruct (Nat.eqb m n) eqn:E; [apply NX; auto|]. apply Nat.eqb_neq in E. apply E. apply (iv_disj _ _ V m n x); auto.
    rewrite Q. apply in_app_iff. simpl. auto. }
  split; [|split; [constructor; reflexivity|split; [reflexivity|]]].
  - constructor; cbn [es_head es_ring es_info es_fresh set_ring set_info set_head].
    + intros m. unfold upd. destruct (Nat.eqb m n); auto. apply (iv_head _ _ V).
    + intros m. pose proof (NE m) as NEm. unfold upd at 2. unfold upd in NEm. destruct (Nat.eqb m n) eqn:E.
      * eapply qring_frame; [exact B|]. intros j J. apply upd_other. apply NEm; auto.
      * eapply qring_frame; [apply (iv_ring _ _ V)|]. intros j J. rewrite upd_other by (apply NEm; auto). apply C.
        intros K. apply Nat.eqb_neq in E. apply E. apply (iv_disj _ _ V m n j); auto. rewrite Q. apply in_app_iff. simpl in K. rewrite in_app_iff in K. simpl. tauto.
    + intros m y I. rewrite upd_other by (eapply NE; eauto). apply (iv_info _ _ V m). auto.
    + intros m y I. apply (iv_fresh _ _ V m). auto.
    + intros a b y Ia Ib. apply (iv_disj _ _ V a b y); auto.
  - intros y Y. cbn [es_info set_info]. apply upd_other; auto.
Qed.

Lemma remove_loop_ok : forall l2 s q n ty l cap l1 x fuel, einv s q -> q n = l1 ++ x :: l2 -> length l2 < fuel ->
  exists s', remove_loop fuel n ty l cap x s = Ok tt s' /\
    einv s' (upd q n (rot_remove (entry_matches s ty l cap) l1 (x :: l2))) /\ rest_same s s' /\ es_fresh s' = es_fresh s /\
    (forall y, In y (rot_remove (entry_matches s ty l cap) l1 (x :: l2)) \/ ~ In y (q n) -> es_info s' y = es_info s y).
Proof.
  induction l2 as [|x' l2]; intros s q n ty l cap l1 x fuel V Q LT; (destruct fuel as [|f]; [simpl in LT; lia|]);
    assert (IX : In x (q n)) by (rewrite Q; apply in_app_iff; simpl; auto);
    destruct (es_info s x) as [i|] eqn:EI; try (exfalso; apply (iv_info _ _ V _ _ IX); auto; fail);
    pose proof (iv_ring _ _ V n) as R; rewrite Q in R; destruct (qring_next _ _ _ _ R) as (c & HC & NC);
    pose proof (qring_nodup _ _ R) as ND; apply NoDup_remove_2 in ND;
    cbn [remove_loop]; rewrite (rbind_ok _ _ _ _ _ _ _ _ (load_info_ok _ _ _ EI));
    rewrite (rbind_ok _ _ _ _ _ _ _ _ (load_next_ok _ _ _ HC)); rewrite NC;
    assert (EM : entry_matches s ty l cap x = matches ty l cap i) by (unfold entry_matches; rewrite EI; auto);
    cbn [rot_remove]; rewrite EM.
  - destruct (matches ty l cap i).
    + destruct (remove_found s q n l1 x [] V Q) as (s' & A & B & C & D & E). exists s'. split; auto. split; auto. split; auto. split; auto.
      intros y Y. apply E. intros ->. destruct Y as [Y|Y]; [|tauto]. apply ND. rewrite in_app_iff in *. tauto.
    + rewrite (rbind_ok _ _ _ _ _ _ _ _ (eq_refl : get_head n s = Ok (es_head s n) s)). rewrite (iv_head _ _ V), Q.
      assert (E : hd_error (l1 ++ [x]) = Some (hd x (l1 ++ [x]))) by (destruct l1; auto). rewrite E.
      assert (E2 : hd x ([] ++ l1) = hd x (l1 ++ [x])) by (destruct l1; auto). rewrite E2, Nat.eqb_refl. exists s. split; auto.
      split; [|split; [constructor; reflexivity|split; auto]].
      destruct V as [V1 V2 V3 V4 V5]. assert (EX : forall m, upd q n (l1 ++ [x]) m = q m) by (intros m; unfold upd; destruct (Nat.eqb m n) eqn:EE; auto; apply Nat.eqb_eq in EE; congruence).
      constructor; intros *; rewrite ?EX; eauto.
  - destruct (matches ty l cap i).
    + destruct (remove_found s q n l1 x (x' :: l2) V Q) as (s' & A & B & C & D & E). exists s'. split; auto. split; auto. split; auto. split; auto.
      intros y Y. apply E. intros ->. destruct Y as [Y|Y]; [|tauto]. apply ND. rewrite in_app_iff in *. tauto.
    + rewrite (rbind_ok _ _ _ _ _ _ _ _ (eq_refl : get_head n s = Ok (es_head s n) s)). rewrite (iv_head _ _ V), Q. cbn [app hd].
      assert (E : exists a, hd_error (l1 ++ x :: x' :: l2) = Some a /\ a <> x').
      { pose proof (qring_nodup _ _ R) as ND'. destruct l1 as [|a l1]; simpl.
        - exists x. split; auto. intros ->. inversion ND'; subst. apply H1. simpl; auto.
        - exists a. split; auto. intros ->. inversion ND'; subst. apply H1. apply in_app_iff. simpl; auto. }
      destruct E as (a & -> & NE). apply not_eq_sym, Nat.eqb_neq in NE. rewrite NE.
      assert (Q' : q n = (l1 ++ [x]) ++ x' :: l2) by (rewrite <- app_assoc; auto).
      assert (LT' : length l2 < f) by (simpl in LT; lia).
      pose proof (IHl2 s q n ty l cap (l1 ++ [x]) x' f V Q' LT') as IH. cbn [rot_remove] in IH.
      replace (l1 ++ x :: x' :: l2) with (q n). exact IH.
Qed.

Lemma remove_listener_ok : forall s q n ty l cap, einv s q ->
  exists s', remove_listener n ty l cap s = Ok tt s' /\
    einv s' (upd q n (rot_remove (entry_matches s ty l cap) [] (q n))) /\ rest_same s s' /\ es_fresh s' = es_fresh s /\
    (forall y, In y (rot_remove (entry_matches s ty l cap) [] (q n)) \/ ~ In y (q n) -> es_info s' y = es_info s y).
Proof.
  intros s q n ty l cap V. unfold remove_listener. rewrite (iv_head _ _ V). pose proof (einv_length s q n V) as LEN. destruct (q n) as [|x r] eqn:Q.
  - cbn [hd_error rot_remove]. exists s. split; auto. split; [|split; [constructor; reflexivity|split; auto]].
    destruct V as [V1 V2 V3 V4 V5]. assert (EX : forall m, upd q n [] m = q m) by (intros m; unfold upd; destruct (Nat.eqb m n) eqn:EE; auto; apply Nat.eqb_eq in EE; congruence).
    constructor; intros *; rewrite ?EX; eauto.
  - cbn [hd_error]. destruct (remove_loop_ok r s q n ty l cap [] x (S (es_fresh s)) V Q) as (s' & A & B & C & D & E); [simpl in LEN; lia|].
    rewrite Q in E. exists s'. auto.
Qed.

(** * All calls *)
Definition flags_grow (a b : event) : Prop :=
  ev_type b = ev_type a /\ ev_bubble b = ev_bubble a /\ ev_cancelable b = ev_cancelable a /\ ev_in_dispatch b = ev_in_dispatch a /\
  ev_target b = ev_target a /\ ev_current b = ev_current a /\ ev_phase b = ev_phase a.
Lemma flags_grow_refl : forall a, flags_grow a a. Proof. firstorder. Qed.
Lemma flags_grow_trans : forall a b c, flags_grow a b -> flags_grow b c -> flags_grow a c.
Proof. unfold flags_grow. intuition congruence. Qed.

Lemma run_op_safe : forall o s q, einv s q ->
  (exists s' q', run_op o s = Ok tt s' /\ einv s' q' /\ flags_grow (es_ev s) (es_ev s')) \/
  (run_op o s = Bad OutOfFuel /\ ev_in_dispatch (es_ev s) = false).
Proof.
  intros o s q V. destruct o; cbn [run_op].
  - left. destruct (add_listener_ok s q n ty l capture V) as (s' & A & B & C & _). exists s'. eexists. rewrite (rs_ev _ _ C). split; [exact A|]. split; [exact B|apply flags_grow_refl].
  - left. destruct (remove_listener_ok s q n ty l capture V) as (s' & A & B & C & _). exists s'. eexists. rewrite (rs_ev _ _ C). split; [exact A|]. split; [exact B|apply flags_grow_refl].
  - left. eexists. exists q. split; [reflexivity|]. split; [eapply einv_ext; eauto|firstorder].
  - left. eexists. exists q. split; [reflexivity|]. split; [eapply einv_ext; eauto|firstorder].
  - left. eexists. exists q. split; [reflexivity|]. split; [eapply einv_ext; eauto|firstorder].
  - left. eexists. exists q. split; [reflexivity|]. split; [eapply einv_ext; eauto|firstorder].
  - destruct (ev_in_dispatch (es_ev s)); auto. left. eexists. exists q. split; [reflexivity|]. split; [eapply einv_ext; eauto|apply flags_grow_refl].
Qed.
Lemma run_ops_safe : forall os s q, einv s q -> ev_in_dispatch (es_ev s) = true ->
  exists s' q', run_ops os s = Ok tt s' /\ einv s' q' /\ flags_grow (es_ev s) (es_ev s').
Proof.
  induction os as [|o os]; intros s q V D.
  - exists s, q. split; [reflexivity|]. split; auto. apply flags_grow_refl.
  - destruct (run_op_safe o s q V) as [(s1 & q1 & A & B & C)|[_ X]]; [|congruence].
    destruct (IHos s1 q1 B) as (s2 & q2 & A2 & B2 & C2). { destruct C as (_ & _ & _ & C & _). congruence. }
    exists s2, q2. cbn [run_ops]. rewrite (rbind_ok _ _ _ _ _ _ _ _ A). split; auto. split; auto. eapply flags_grow_trans; eauto.
Qed.
