(** User data: the linked list implements a map. *)
From Coq Require Import List Arith NArith Bool Lia.
From Verif Require Import Base RingProofs StringProofs UserDataModel UserDataSpec.
Import ListNotations.
Local Open Scope dom_scope.

Definition uheap : Type := nat -> option udcell.
Definition hset (h : uheap) (i : nat) (c : option udcell) : uheap := fun j => if Nat.eqb j i then c else h j.
Lemma hset_same : forall h i c, hset h i c i = c. Proof. intros. unfold hset. rewrite Nat.eqb_refl. auto. Qed.
Lemma hset_other : forall h i c j, j <> i -> hset h i c j = h j. Proof. intros. unfold hset. apply Nat.eqb_neq in H. rewrite H. auto. Qed.
Lemma bytes_eqb_iff : forall a b, bytes_eqb a b = true <-> a = b.
Proof. intros a b. destruct (bytes_eqb_spec a b); split; congruence. Qed.
Lemma bytes_eqb_same : forall a, bytes_eqb a a = true. Proof. intros. apply bytes_eqb_iff. auto. Qed.

(** Walking [l] from [cur] with back pointer [p] leads to [cur'] with back pointer [p']. *)
Fixpoint seg (h : uheap) (p cur : option nat) (l : list nat) (p' cur' : option nat) : Prop :=
  match l with
  | [] => p' = p /\ cur' = cur
  | x :: r => cur = Some x /\ exists c, h x = Some c /\ u_prev c = p /\ seg h (Some x) (u_next c) r p' cur'
  end.
Lemma seg_app : forall h l1 l2 p cur p' cur', seg h p cur (l1 ++ l2) p' cur' <-> exists pm cm, seg h p cur l1 pm cm /\ seg h pm cm l2 p' cur'.
Proof.
  intros h. induction l1 as [|x l1]; intros l2 p cur p' cur'; cbn [app seg].
  - split; [intros H; exists p, cur; auto|]. intros (pm & cm & (-> & ->) & H). auto.
  - split.
    + intros (E & c & A & B & H). apply IHl1 in H. destruct H as (pm & cm & H1 & H2). exists pm, cm. split; auto. split; eauto.
    + intros (pm & cm & (E & c & A & B & H1) & H2). split; auto. exists c. split; auto. split; auto. apply IHl1. eauto.
Qed.
Lemma seg_frame : forall h h' l p cur p' cur', (forall x, In x l -> h' x = h x) -> seg h p cur l p' cur' -> seg h' p cur l p' cur'.
Proof.
  intros h h'. induction l as [|x l]; intros p cur p' cur' F H; auto. cbn [seg] in *. destruct H as (E & c & A & B & H). split; auto.
  exists c. rewrite F by (simpl; auto). split; auto. split; auto. apply IHl; auto. intros; apply F; simpl; auto.
Qed.
Lemma seg_last : forall h l z p cur p' cur', seg h p cur (l ++ [z]) p' cur' -> p' = Some z.
Proof. intros h l z p cur p' cur' H. apply seg_app in H. destruct H as (pm & cm & _ & (_ & c & _ & _ & E & _)). auto. Qed.
(** Redirecting the last next pointer. *)
Lemma seg_retarget : forall h l z p cur p' cur' c y, seg h p cur (l ++ [z]) p' cur' -> NoDup (l ++ [z]) -> h z = Some c ->
  seg (hset h z (Some (with_next y c))) p cur (l ++ [z]) (Some z) y.
Proof.
  intros h l z p cur p' cur' c y H ND E. apply seg_app in H. destruct H as (pm & cm & H1 & H2). apply seg_app. exists pm, cm. split.
  - eapply seg_frame; [|exact H1]. intros x I. apply hset_other. intros ->. apply NoDup_remove_2 in ND. rewrite app_nil_r in ND. auto.
  - cbn [seg] in *. destruct H2 as (-> & c' & A & B & _). split; auto. exists (with_next y c). rewrite hset_same. split; auto. assert (c' = c) by congruence. subst. auto.
Qed.
(** Changing the first back pointer. *)
Lemma seg_reback : forall h x l p cur p' cur' c q, seg h p cur (x :: l) p' cur' -> NoDup (x :: l) -> h x = Some c ->
  seg (hset h x (Some (with_prev q c))) q cur (x :: l) p' cur'.
Proof.
  intros h x l p cur p' cur' c q H ND E. cbn [seg] in *. destruct H as (-> & c' & A & B & H). split; auto. exists (with_prev q c). rewrite hset_same. split; auto. split; auto.
  assert (c' = c) by congruence. subst. cbn [with_prev u_next]. eapply seg_frame; [|exact H]. intros y I. apply hset_other. intros ->. inversion ND; auto.
Qed.
Definition triple (c : udcell) : bytes * option nat * option nat := (u_key c, u_data c, u_handler c).
Definition info (h : uheap) (l : list nat) : list (option (bytes * option nat * option nat)) := map (fun x => option_map triple (h x)) l.
Lemma info_frame : forall h h' l, (forall x, In x l -> option_map triple (h' x) = option_map triple (h x)) -> info h' l = info h l.
Proof. intros. unfold info. apply map_ext_in. auto. Qed.

Record uinv (s : ustate) (q : nat -> list nat) (t : nat -> list (bytes * option nat * option nat)) : Prop := {
  ui_seg : forall n, exists e, seg (us_heap s) None (us_first s n) (q n) e None;
  ui_nodup : forall n, NoDup (q n);
  ui_fresh : forall n x, In x (q n) -> x < us_fresh s;
  ui_disj : forall n m x, In x (q n) -> In x (q m) -> n = m;
  ui_info : forall n, info (us_heap s) (q n) = map Some (t n);
  ui_keys : forall n, NoDup (map (fun e => fst (fst e)) (t n)) }.
Lemma uinv_length : forall s q t n, uinv s q t -> length (q n) <= us_fresh s.
Proof.
  intros s q t n V. rewrite <- (seq_length (us_fresh s) 0). apply NoDup_incl_length; [apply (ui_nodup _ _ _ V)|].
  intros x I. apply in_seq. pose proof (ui_fresh _ _ _ V _ _ I). lia.
Qed.

Lemma uload_ok : forall s i c, us_heap s i = Some c -> uload (Some i) s = Ok c s.
Proof. intros. unfold uload. rewrite H. auto. Qed.
Lemma ustore_ok : forall s i c f, us_heap s i = Some c -> ustore (Some i) f s = Ok tt (mkU (hset (us_heap s) i (Some (f c))) (us_fresh s) (us_first s) (us_log s)).
Proof. intros. unfold ustore. rewrite (rbind_ok _ _ _ _ _ _ _ _ (uload_ok _ _ _ H)). reflexivity. Qed.

Fixpoint tfind (k : bytes) (t : list (bytes * option nat * option nat)) : option (option nat * option nat) :=
  match t with
  | [] => None
  | (k', d, h) :: r => if bytes_eqb k' k then Some (d, h) else tfind k r
  end.
(** The search splits the list. *)
Lemma ud_find_ok : forall s k l t p cur e fuel, seg (us_heap s) p cur l e None -> info (us_heap s) l = map Some t -> length l <= fuel ->
  (exists l1 x l2 t1 d h t2, l = l1 ++ x :: l2 /\ t = t1 ++ (k, d, h) :: t2 /\ length t1 = length l1 /\ ud_find fuel k cur s = Ok (Some x) s /\ tfind k t = Some (d, h) /\ tfind k t1 = None) \/
  (ud_find fuel k cur s = Ok None s /\ tfind k t = None).
Proof.
  intros s k. induction l as [|x l]; intros t p cur e fuel H I LE.
  - cbn [seg] in H. destruct H as (_ & <-). destruct t; [|discriminate]. right. split; auto. destruct fuel; auto.
  - cbn [seg] in H. destruct H as (-> & c & A & B & H). destruct fuel as [|f]; [simpl in LE; lia|]. destruct t as [|[[k' d] h] t]; [discriminate|].
    cbn [info map] in I. rewrite A in I. cbn [option_map] in I. injection I as EK ED EH I.
    cbn [ud_find]. rewrite (rbind_ok _ _ _ _ _ _ _ _ (uload_ok _ _ _ A)). rewrite EK. cbn [tfind]. destruct (bytes_eqb k' k) eqn:E.
    + left. apply bytes_eqb_iff in E. rewrite E. exists [], x, l, [], d, h, t. repeat split; auto.
    + destruct (IHl t _ _ _ f H I ltac:(simpl in LE; lia)) as [(l1 & y & l2 & t1 & d' & h' & t2 & -> & -> & L & F & T & N)|(F & T)].
      * left. exists (x :: l1), y, l2, ((k', d, h) :: t1), d', h', t2. cbn [tfind]. rewrite E. repeat split; auto. simpl. lia.
      * right. auto.
Qed.
Lemma info_app : forall h a b, info h (a ++ b) = info h a ++ info h b. Proof. intros. apply map_app. Qed.
Lemma info_split : forall h l1 x l2 t1 e t2, info h (l1 ++ x :: l2) = map Some (t1 ++ e :: t2) -> length t1 = length l1 ->
  info h l1 = map Some t1 /\ option_map triple (h x) = Some e /\ info h l2 = map Some t2.
Proof.
  intros h l1. induction l1 as [|y l1]; intros x l2 t1 e t2 I L; destruct t1 as [|z t1]; try discriminate; cbn [app info map] in *.
  - injection I as A B. auto.
  - injection I as A B. destruct (IHl1 x l2 t1 e t2 B) as (I1 & I2 & I3); [simpl in L; lia|]. split; auto. unfold info in I1. congruence.
Qed.

(** Reading maps off entry lists. *)
Definition shows (t : nat -> list (bytes * option nat * option nat)) (m : umap) : Prop :=
  forall n k, m n k = match tfind k (t n) with Some (Some d, h) => Some (d, h) | _ => None end.
Lemma tfind_in : forall k d h t, NoDup (map (fun e => fst (fst e)) t) -> In (k, d, h) t -> tfind k t = Some (d, h).
Proof.
  induction t as [|[[k' d'] h'] t]; intros ND I; [destruct I|]. cbn [map fst] in ND. inversion ND as [|? ? NI ND']; subst. cbn [tfind]. destruct I as [I|I].
  - injection I as -> -> ->. rewrite bytes_eqb_same. auto.
  - destruct (bytes_eqb k' k) eqn:E; auto. apply bytes_eqb_iff in E. subst. exfalso. apply NI. apply (in_map (fun e => fst (fst e)) _ (k, d, h)). auto.
Qed.
Lemma tfind_out : forall k d h t, tfind k t = Some (d, h) -> In (k, d, h) t.
Proof.
  induction t as [|[[k' d'] h'] t]; intros H; [discriminate|]. cbn [tfind] in H. destruct (bytes_eqb k' k) eqn:E; [|right; auto].
  apply bytes_eqb_iff in E. injection H as -> ->. subst. left; auto.
Qed.
Lemma tfind_none : forall k t, tfind k t = None -> ~ In k (map (fun e => fst (fst e)) t).
Proof.
  induction t as [|[[k' d'] h'] t]; intros H; [intros []|]. cbn [tfind] in H. destruct (bytes_eqb k' k) eqn:E; [discriminate|].
  cbn [map fst]. intros [<-|I]; [rewrite bytes_eqb_same in E; discriminate|]. apply IHt; auto.
Qed.
Lemma tfind_app : forall k a b, tfind k (a ++ b) = match tfind k a with Some e => Some e | None => tfind k b end.
Proof. induction a as [|[[k' d] h] a]; intros b; auto. cbn [app tfind]. destruct (bytes_eqb k' k); auto. Qed.
Lemma tfind_absent : forall k t, ~ In k (map (fun e => fst (fst e)) t) -> tfind k t = None.
Proof.
  induction t as [|[[k' d'] h'] t]; intros H; auto. cbn [tfind]. destruct (bytes_eqb k' k) eqn:E.
  - apply bytes_eqb_iff in E. subst. exfalso. apply H. simpl; auto.
  - apply IHt. intros I. apply H. simpl; auto.
Qed.
Lemma bytes_eqb_neq : forall a b, a <> b -> bytes_eqb a b = false.
Proof. intros a b H. destruct (bytes_eqb_spec a b); auto. congruence. Qed.

Definition upd {A} (f : nat -> A) (i : nat) (a : A) : nat -> A := fun j => if Nat.eqb j i then a else f j.
Lemma upd_same : forall A (f : nat -> A) i a, upd f i a i = a. Proof. intros. unfold upd. rewrite Nat.eqb_refl. auto. Qed.
Lemma upd_other : forall A (f : nat -> A) i a j, j <> i -> upd f i a j = f j. Proof. intros. unfold upd. apply Nat.eqb_neq in H. rewrite H. auto. Qed.

(** A change confined to the list of [n]. *)
Lemma uinv_local : forall s q t n s' l tl, uinv s q t ->
  (forall x, ~ In x (q n) -> x < us_fresh s -> us_heap s' x = us_heap s x) -> us_fresh s <= us_fresh s' ->
  (forall m, m <> n -> us_first s' m = us_first s m) ->
  (exists e, seg (us_heap s') None (us_first s' n) l e None) -> NoDup l -> (forall x, In x l -> In x (q n) \/ us_fresh s <= x < us_fresh s') ->
  info (us_heap s') l = map Some tl -> NoDup (map (fun e => fst (fst e)) tl) -> uinv s' (upd q n l) (upd t n tl).
Proof.
  intros s q t n s' l tl V F FR FI SG ND IN INF KE.
  assert (FQ : forall m, m <> n -> forall x, In x (q m) -> us_heap s' x = us_heap s x).
  { intros m NE x I. apply F; [|eapply (ui_fresh _ _ _ V); eauto]. intros J. apply NE. eapply (ui_disj _ _ _ V); eauto. }
  constructor; intros m; unfold upd; destruct (Nat.eqb m n) eqn:E; try (apply Nat.eqb_eq in E; subst m); try (apply Nat.eqb_neq in E); auto.
  - rewrite FI by auto. destruct (ui_seg _ _ _ V m) as [e S]. exists e. eapply seg_frame; [|exact S]. intros x I. eapply FQ; eauto.
  - apply (ui_nodup _ _ _ V).
  - intros x I. destruct (IN x I) as [J|J]; [|lia]. apply (ui_fresh _ _ _ V) in J. lia.
  - intros x I. apply (ui_fresh _ _ _ V) in I. lia.
  - intros m' x I J. destruct (Nat.eqb m' n) eqn:E'; [apply Nat.eqb_eq in E'; auto|]. apply Nat.eqb_neq in E'. destruct (IN x I) as [K|K]; [eapply (ui_disj _ _ _ V); eauto|]. apply (ui_fresh _ _ _ V) in J. lia.
  - intros m' x I J. destruct (Nat.eqb m' n) eqn:E'; [apply Nat.eqb_eq in E'; subst m'|]; [|eapply (ui_disj _ _ _ V); eauto].
    destruct (IN x J) as [K|K]; [eapply (ui_disj _ _ _ V); eauto|]. apply (ui_fresh _ _ _ V) in I. lia.
  - rewrite <- (ui_info _ _ _ V m). apply info_frame. intros x I. rewrite (FQ m E x I). auto.
  - apply (ui_keys _ _ _ V).
Qed.

(** * set *)
(** The entry list after a set. *)
Fixpoint tdel (k : bytes) (t : list (bytes * option nat * option nat)) :=
  match t with
  | [] => []
  | (k', d, h) :: r => if bytes_eqb k' k then r else (k', d, h) :: tdel k r
  end.
Fixpoint tset (k : bytes) d0 h0 (t : list (bytes * option nat * option nat)) :=
  match t with
  | [] => []
  | (k', d, h) :: r => if bytes_eqb k' k then (k', d0, h0) :: r else (k', d, h) :: tset k d0 h0 r
  end.
Definition tafter (k : bytes) (d h : option nat) (t : list (bytes * option nat * option nat)) :=
  match tfind k t, d with
  | Some _, None => tdel k t
  | Some _, _ => tset k d h t
  | None, _ => (k, d, h) :: t
  end.
Lemma tdel_split : forall k d h t1 t2, tfind k t1 = None -> tdel k (t1 ++ (k, d, h) :: t2) = t1 ++ t2.
Proof.
  induction t1 as [|[[k' d'] h'] t1]; intros t2 N; cbn [app tdel tfind] in *; [rewrite bytes_eqb_same; auto|]. destruct (bytes_eqb k' k); [discriminate|]. f_equal; auto.
Qed.
Lemma tset_split : forall k d0 h0 d h t1 t2, tfind k t1 = None -> tset k d0 h0 (t1 ++ (k, d, h) :: t2) = t1 ++ (k, d0, h0) :: t2.
Proof.
  induction t1 as [|[[k' d'] h'] t1]; intros t2 N; cbn [app tset tfind] in *; [rewrite bytes_eqb_same; auto|]. destruct (bytes_eqb k' k); [discriminate|]. f_equal; auto.
Qed.

Lemma set_user_data_ok : forall s q t n k d h, uinv s q t ->
  exists s' q', set_user_data n k d h s = Ok (match tfind k (t n) with Some (d0, _) => d0 | None => None end) s' /\
    uinv s' q' (upd t n (tafter k d h (t n))) /\ us_log s' = us_log s.
Proof.
  intros s q t n k d h V. unfold set_user_data, ud_search. unfold bind at 1.
  destruct (ui_seg _ _ _ V n) as [e SG]. pose proof (ui_nodup _ _ _ V n) as ND. pose proof (ui_info _ _ _ V n) as INF. pose proof (ui_keys _ _ _ V n) as KE.
  destruct (ud_find_ok s k (q n) (t n) None (us_first s n) e (us_fresh s) SG INF (uinv_length _ _ _ n V))
    as [(l1 & x & l2 & t1 & d0 & h0 & t2 & Q & T & L & F & TF & TN)|(F & TF)]; rewrite F, TF; unfold tafter; rewrite TF.
  - rewrite Q in SG, ND, INF. rewrite T in INF, KE. destruct (info_split _ _ _ _ _ _ _ INF L) as (I1 & I2 & I3).
    pose proof SG as SG0. apply seg_app in SG. destruct SG as (pm & cm & S1 & S2). cbn [seg] in S2. destruct S2 as (-> & c & A & B & S2).
    assert (TR : triple c = (k, d0, h0)) by (rewrite A in I2; cbn in I2; congruence). unfold triple in TR. injection TR as TK TD TH.
    assert (NX : ~ In x (l1 ++ l2)) by (apply NoDup_remove_2 in ND; auto).
    assert (ND2 : NoDup (l1 ++ l2)) by (apply NoDup_remove_1 in ND; auto).
    destruct d as [d|].
    + (* overwrite *)
      unfold bind at 1, ret at 1. rewrite (rbind_ok _ _ _ _ _ _ _ _ (uload_ok _ _ _ A)). rewrite (rbind_ok _ _ _ _ _ _ _ _ (ustore_ok _ _ _ _ A)). unfold ret. rewrite TD.
      eexists. exists (upd q n (q n)). split; [reflexivity|]. split; auto. rewrite T, tset_split by auto.
      assert (FH : forall y, y <> x -> hset (us_heap s) x (Some (with_data (Some d) h c)) y = us_heap s y) by (intros; apply hset_other; auto).
      apply (uinv_local s q t n _ (q n)); cbn [us_heap us_fresh us_first]; auto.
      * intros y NI _. apply FH. intros ->. apply NI. rewrite Q. apply in_app_iff; simpl; auto.
      * exists e. rewrite Q. apply seg_app. exists pm, (Some x). split.
        -- eapply seg_frame; [|exact S1]. intros y I. apply FH. intros ->. apply NX. apply in_app_iff; auto.
        -- cbn [seg]. split; auto. exists (with_data (Some d) h c). rewrite hset_same. split; auto. split; auto. eapply seg_frame; [|exact S2].
           intros y I. apply FH. intros ->. apply NX. apply in_app_iff; auto.
      * rewrite Q; auto.
      * rewrite Q, info_app, map_app. cbn [info map]. rewrite hset_same. cbn [option_map].
        assert (E1 : info (hset (us_heap s) x (Some (with_data (Some d) h c))) l1 = info (us_heap s) l1).
        { apply info_frame. intros y I. rewrite FH; auto. intros ->. apply NX. apply in_app_iff; auto. }
        assert (E2 : info (hset (us_heap s) x (Some (with_data (Some d) h c))) l2 = info (us_heap s) l2).
        { apply info_frame. intros y I. rewrite FH; auto. intros ->. apply NX. apply in_app_iff; auto. }
        rewrite E1, I1. unfold info in E2, I3. rewrite E2, I3. unfold triple, with_data. cbn [u_key u_data u_handler]. rewrite TK. auto.
      * rewrite map_app in *. cbn [map fst] in *. auto.
    + (* unlink *)
      rewrite (rbind_ok _ _ _ _ _ _ _ _ (uload_ok _ _ _ A)).
      assert (LIVE2 : forall y r, l2 = y :: r -> u_next c = Some y /\ exists cy, us_heap s y = Some cy).
      { intros y r ->. cbn [seg] in S2. destruct S2 as (E & cy & Ey & _). split; eauto. }
      (* first step *)
      assert (ST1 : exists h1, (match u_next c with Some y => ustore (Some y) (with_prev (u_prev c)) | None => ret tt end) s = Ok tt (mkU h1 (us_fresh s) (us_first s) (us_log s)) /\
         (exists e1, seg h1 pm (u_next c) l2 e1 None) /\ (forall y, ~ In y l2 -> h1 y = us_heap s y) /\ info h1 l2 = info (us_heap s) l2).
      { destruct l2 as [|y r].
        - cbn [seg] in S2. destruct S2 as (_ & <-). exists (us_heap s). split; [destruct s; reflexivity|]. split; [exists pm; cbn [seg]; auto|]. auto.
        - destruct (LIVE2 y r eq_refl) as (E & cy & Ey). rewrite E. erewrite ustore_ok by exact Ey. eexists. split; [reflexivity|].
          assert (NDr : NoDup (y :: r)). { clear - ND2. induction l1; auto. inversion ND2; auto. }
          rewrite B. split; [exists e; rewrite <- E; eapply seg_reback; eauto|]. split.
          + intros z NZ. apply hset_other. intros ->. apply NZ; simpl; auto.
          + apply info_frame. intros z I. destruct (Nat.eq_dec z y) as [->|NE]; [rewrite hset_same, Ey; reflexivity|rewrite hset_other; auto]. }
      destruct ST1 as (h1 & E1 & (e1 & SG1) & F1 & IN1). rewrite (rbind_ok _ _ _ _ _ _ _ _ E1).
      assert (DIS : forall y, In y l1 -> ~ In y l2). { intros y Y1 Y2. clear - ND2 Y1 Y2. induction l1 as [|z l1]; [destruct Y1|]. cbn [app] in ND2. inversion ND2; subst. destruct Y1 as [->|Y1]; auto. apply H1. apply in_app_iff; auto. }
      assert (S1' : seg h1 None (us_first s n) l1 pm (Some x)). { eapply seg_frame; [|exact S1]. intros y I. apply F1. auto. }
      (* second step *)
      assert (ST2 : exists h2 f2, (match u_prev c with Some y => ustore (Some y) (with_next (u_next c)) | None => set_first n (u_next c) end) (mkU h1 (us_fresh s) (us_first s) (us_log s)) = Ok tt (mkU h2 (us_fresh s) f2 (us_log s)) /\
         (exists e2, seg h2 None (f2 n) (l1 ++ l2) e2 None) /\ (forall y, ~ In y (l1 ++ l2) -> h2 y = us_heap s y) /\ info h2 (l1 ++ l2) = info (us_heap s) (l1 ++ l2) /\ (forall m, m <> n -> f2 m = us_first s m)).
      { destruct l1 as [|z0 l1'] using rev_ind.
        - cbn [seg] in S1. destruct S1 as (-> & _). rewrite B. eexists. eexists. split; [reflexivity|]. cbn [app]. rewrite Nat.eqb_refl. split; [eauto|]. split; [auto|]. split; auto.
          intros m NE. apply Nat.eqb_neq in NE. rewrite NE. auto.
        - clear IHl1'. pose proof (seg_last _ _ _ _ _ _ _ S1) as PM. rewrite B, PM.
          assert (LZ : exists cz, h1 z0 = Some cz). { apply seg_app in S1'. destruct S1' as (? & ? & _ & (_ & cz & Ez & _)). eauto. }
          destruct LZ as (cz & Ez). erewrite ustore_ok by (cbn [us_heap]; exact Ez). cbn [us_heap us_fresh us_first us_log]. eexists. eexists. split; [reflexivity|].
          assert (NDl : NoDup (l1' ++ [z0])). { clear - ND2. induction (l1' ++ [z0]); [constructor|]. inversion ND2; subst. constructor; auto. intros I. apply H1. apply in_app_iff; auto. }
          split; [|split; [|split; auto]].
          + exists e1. apply seg_app. exists (Some z0), (u_next c). split; [eapply seg_retarget; eauto|]. rewrite PM in SG1. eapply seg_frame; [|exact SG1].
            intros y I. apply hset_other. intros ->. apply (DIS z0); auto. apply in_app_iff; simpl; auto.
          + intros y NI. rewrite hset_other; [apply F1; intros I; apply NI; apply in_app_iff; auto|]. intros ->. apply NI. rewrite !in_app_iff; simpl; auto.
          + assert (FZ : forall y, option_map triple (hset h1 z0 (Some (with_next (u_next c) cz)) y) = option_map triple (h1 y)).
            { intros y. destruct (Nat.eq_dec y z0) as [->|NE]; [rewrite hset_same, Ez; reflexivity|rewrite hset_other; auto]. }
            rewrite (info_frame h1 (hset h1 z0 (Some (with_next (u_next c) cz)))) by auto. rewrite !info_app. f_equal; auto. rewrite <- !info_app. apply info_frame. intros y I. rewrite F1; auto. }
      destruct ST2 as (h2 & f2 & E2 & SG2 & F2 & IN2 & FF2). rewrite (rbind_ok _ _ _ _ _ _ _ _ E2). unfold bind, uput, modst, ret. cbn [us_heap us_fresh us_first us_log]. rewrite TD.
      eexists. exists (upd q n (l1 ++ l2)). split; [reflexivity|]. split; auto. rewrite T, tdel_split by auto.
      assert (FX : forall y, y <> x -> (fun j => if Nat.eqb j x then None else h2 j) y = h2 y). { intros y NE. cbn. apply Nat.eqb_neq in NE. rewrite NE. auto. }
      apply (uinv_local s q t n _ (l1 ++ l2)); cbn [us_heap us_fresh us_first]; auto.
      * intros y NI _. rewrite Q in NI. rewrite FX; [|intros ->; apply NI; apply in_app_iff; simpl; auto]. apply F2. intros I. apply NI. rewrite in_app_iff in *. simpl. tauto.
      * destruct SG2 as [e2 SG2]. exists e2. eapply seg_frame; [|exact SG2]. intros y I. apply FX. intros ->. auto.
      * intros y I. left. rewrite Q. rewrite in_app_iff in *. simpl. tauto.
      * rewrite (info_frame h2) by (intros y I; rewrite FX; auto; intros ->; auto). rewrite IN2, info_app, map_app. congruence.
      * rewrite map_app in *. cbn [map fst] in *. apply NoDup_remove_1 in KE. auto.
  - (* new entry *)
    assert (NI : forall m, ~ In (us_fresh s) (q m)). { intros m I. apply (ui_fresh _ _ _ V) in I. lia. }
    set (i := us_fresh s) in *.
    assert (NEW : forall X (r : X) (z : res ustate X), z = z) by auto. clear NEW.
    match goal with |- exists s' q', ?G = _ /\ _ => assert (EQ : exists h1, G = Ok None (mkU h1 (S i) (fun m => if Nat.eqb m n then Some i else us_first s m) (us_log s)) /\
       (exists e1, seg h1 None (Some i) (i :: q n) e1 None) /\ (forall y, y <> i -> ~ In y (q n) -> h1 y = us_heap s y) /\ info h1 (i :: q n) = Some (k, d, h) :: info (us_heap s) (q n)) end.
    { assert (SAME : (match d with Some _ | _ => bind (s0 <- getst ;; let i0 := us_fresh s0 in modst (fun s1 => mkU (us_heap s1) (S (us_fresh s1)) (us_first s1) (us_log s1)) ;;; old <- first_of n ;; uput i0 (Some (mkUd k None None old None)) ;;; match old with Some x => ustore (Some x) (with_prev (Some i0)) | None => ret tt end ;;; set_first n (Some i0) ;;; ret i0) (fun i1 => c <- uload (Some i1) ;; ustore (Some i1) (with_data d h) ;;; ret (u_data c)) end) = (fun z => z) (bind (s0 <- getst ;; let i0 := us_fresh s0 in modst (fun s1 => mkU (us_heap s1) (S (us_fresh s1)) (us_first s1) (us_log s1)) ;;; old <- first_of n ;; uput i0 (Some (mkUd k None None old None)) ;;; match old with Some x => ustore (Some x) (with_prev (Some i0)) | None => ret tt end ;;; set_first n (Some i0) ;;; ret i0) (fun i1 => c <- uload (Some i1) ;; ustore (Some i1) (with_data d h) ;;; ret (u_data c)))) by (destruct d; auto).
      clear SAME.
      set (h0 := hset (us_heap s) i (Some (mkUd k None None (us_first s n) None))).
      assert (INS : exists h1, (s0 <- getst ;; let i0 := us_fresh s0 in modst (fun s1 => mkU (us_heap s1) (S (us_fresh s1)) (us_first s1) (us_log s1)) ;;; old <- first_of n ;; uput i0 (Some (mkUd k None None old None)) ;;; match old with Some x => ustore (Some x) (with_prev (Some i0)) | None => ret tt end ;;; set_first n (Some i0) ;;; ret i0) s =
          Ok i (mkU h1 (S i) (fun m => if Nat.eqb m n then Some i else us_first s m) (us_log s)) /\
          h1 i = Some (mkUd k None None (us_first s n) None) /\ (exists e1, seg h1 (Some i) (us_first s n) (q n) e1 None) /\ (forall y, y <> i -> ~ In y (q n) -> h1 y = us_heap s y) /\ info h1 (q n) = info (us_heap s) (q n)).
      { unfold bind at 1, getst. cbn zeta. unfold bind at 1, modst at 1. unfold bind at 1, first_of. cbn [us_first]. unfold bind at 1, uput, modst at 1. cbn [us_heap us_fresh us_first us_log]. fold i.
        change (fun j => if Nat.eqb j i then Some (mkUd k None None (us_first s n) None) else us_heap s j) with h0.
        assert (SG0 : seg h0 None (us_first s n) (q n) e None). { eapply seg_frame; [|exact SG]. intros y I. apply hset_other. intros ->. apply (NI n); auto. }
        destruct (q n) as [|y r] eqn:Q.
        - cbn [seg] in SG. destruct SG as (_ & EN). exists h0. unfold h0. rewrite <- EN. split; [reflexivity|]. split; [apply hset_same|]. split; [exists (Some i); cbn [seg]; auto|]. split; auto. intros; apply hset_other; auto.
        - pose proof SG as (EF & cy & Ey & _). rewrite EF. assert (YI : y <> i) by (intros ->; apply (NI n); rewrite Q; simpl; auto).
          assert (Ey0 : h0 y = Some cy) by (unfold h0; rewrite hset_other; auto).
          erewrite (rbind_ok _ _ _ (ustore _ _)) by (apply ustore_ok; cbn [us_heap]; exact Ey0). cbn [us_heap us_fresh us_first us_log]. exists (hset h0 y (Some (with_prev (Some i) cy))). split; [reflexivity|].
          split; [rewrite hset_other by auto; unfold h0; rewrite hset_same, EF; auto|]. split; [exists e; rewrite EF in SG0; eapply seg_reback; eauto|]. split.
          + intros z NE NZ. rewrite hset_other by (intros ->; apply NZ; simpl; auto). apply hset_other; auto.
          + apply info_frame. intros z I. destruct (Nat.eq_dec z y) as [->|NE]; [rewrite hset_same, Ey; reflexivity|]. rewrite hset_other by auto. unfold h0. rewrite hset_other; auto. intros ->. apply (NI n). rewrite Q; auto. }
      destruct INS as (h1 & E1 & Hi & (e1 & SG1) & F1 & IN1).
      assert (BODY : (i1 <- (s0 <- getst ;; let i0 := us_fresh s0 in modst (fun s1 => mkU (us_heap s1) (S (us_fresh s1)) (us_first s1) (us_log s1)) ;;; old <- first_of n ;; uput i0 (Some (mkUd k None None old None)) ;;; match old with Some x => ustore (Some x) (with_prev (Some i0)) | None => ret tt end ;;; set_first n (Some i0) ;;; ret i0) ;; c <- uload (Some i1) ;; ustore (Some i1) (with_data d h) ;;; ret (u_data c)) s =
         Ok None (mkU (hset h1 i (Some (mkUd k d h (us_first s n) None))) (S i) (fun m => if Nat.eqb m n then Some i else us_first s m) (us_log s))).
      { rewrite (rbind_ok _ _ _ _ _ _ _ _ E1). erewrite (rbind_ok _ _ _ (uload _)) by (apply uload_ok; cbn [us_heap]; exact Hi). erewrite (rbind_ok _ _ _ (ustore _ _)) by (apply ustore_ok; cbn [us_heap]; exact Hi). reflexivity. }
      exists (hset h1 i (Some (mkUd k d h (us_first s n) None))). split; [destruct d; exact BODY|].
      assert (FI : forall y, In y (q n) -> hset h1 i (Some (mkUd k d h (us_first s n) None)) y = h1 y). { intros y I. apply hset_other. intros ->. apply (NI n); auto. }
      split; [exists e1; cbn [seg]; split; auto; eexists; rewrite hset_same; split; [reflexivity|]; split; auto; cbn [u_next]; eapply seg_frame; [|exact SG1]; auto|]. split.
      - intros y NE NY. rewrite hset_other; auto.
      - cbn [info map]. rewrite hset_same. cbn [option_map]. unfold triple. cbn [u_key u_data u_handler]. f_equal. fold (info (hset h1 i (Some (mkUd k d h (us_first s n) None))) (q n)). rewrite <- IN1. apply info_frame. intros y I. rewrite FI; auto. }
    destruct EQ as (h1 & E1 & SG1 & F1 & IN1).
    assert (E1' := E1). clear E1. exists (mkU h1 (S i) (fun m => if Nat.eqb m n then Some i else us_first s m) (us_log s)), (upd q n (i :: q n)).
    split; [exact E1'|]. split; auto.
    assert (EA : match d with Some _ | None => (k, d, h) :: t n end = (k, d, h) :: t n) by (destruct d; auto). try rewrite EA.
    apply (uinv_local s q t n _ (i :: q n)); cbn [us_heap us_fresh us_first]; auto.
    + intros y NY LT. apply F1; auto. unfold i. lia.
    + intros m NE. apply Nat.eqb_neq in NE. rewrite NE. auto.
    + rewrite Nat.eqb_refl. auto.
    + constructor; auto.
    + intros y [<-|I]; [right; unfold i; lia|auto].
    + rewrite IN1, INF. reflexivity.
    + cbn [map fst]. constructor; auto. apply tfind_none; auto.
Qed.

(** * The other calls *)
Lemma get_user_data_ok : forall s q t n k, uinv s q t -> get_user_data n k s = Ok (match tfind k (t n) with Some (d0, _) => d0 | None => None end) s.
Proof.
  intros s q t n k V. unfold get_user_data, ud_search. unfold bind at 1.
  destruct (ui_seg _ _ _ V n) as [e SG]. pose proof (ui_info _ _ _ V n) as INF.
  destruct (ud_find_ok s k (q n) (t n) None (us_first s n) e (us_fresh s) SG INF (uinv_length _ _ _ n V))
    as [(l1 & x & l2 & t1 & d0 & h0 & t2 & Q & T & L & F & TF & TN)|(F & TF)]; rewrite F, TF; auto.
  rewrite Q in SG, INF. rewrite T in INF. destruct (info_split _ _ _ _ _ _ _ INF L) as (I1 & I2 & I3).
  destruct (us_heap s x) as [c|] eqn:A; [|discriminate]. rewrite (rbind_ok _ _ _ _ _ _ _ _ (uload_ok _ _ _ A)). unfold ret. cbn in I2. unfold triple in I2. congruence.
Qed.

Definition told (op : udop) (n : nat) (e : bytes * option nat * option nat) : list notice :=
  match e with (k, d, Some h) => [mkNotice op n k d h] | _ => [] end.
Definition ulog (s : ustate) (l : list notice) : ustate := mkU (us_heap s) (us_fresh s) (us_first s) l.
Lemma tell_clone_ok : forall n l s t p cur e fuel, seg (us_heap s) p cur l e None -> info (us_heap s) l = map Some t -> length l <= fuel ->
  tell_clone fuel n cur s = Ok tt (ulog s (rev (flat_map (told UdCloned n) t) ++ us_log s)).
Proof.
  intros n. induction l as [|x l]; intros s t p cur e fuel H I LE.
  - cbn [seg] in H. destruct H as (_ & <-). destruct t; [|discriminate]. destruct fuel; destruct s; reflexivity.
  - cbn [seg] in H. destruct H as (-> & c & A & B & H). destruct fuel as [|f]; [simpl in LE; lia|]. destruct t as [|[[k' d] h] t]; [discriminate|].
    cbn [info map] in I. rewrite A in I. cbn [option_map] in I. injection I as EK ED EH I. cbn [tell_clone]. rewrite (rbind_ok _ _ _ _ _ _ _ _ (uload_ok _ _ _ A)). rewrite EK, ED, EH.
    destruct h as [h|]; unfold bind, tell, modst, ret.
    + erewrite IHl; [|exact H|exact I|simpl in LE; lia]. cbn [flat_map told rev app us_log]. unfold ulog. cbn [us_heap us_fresh us_first us_log].
      rewrite <- app_assoc. reflexivity.
    + erewrite IHl; [|exact H|exact I|simpl in LE; lia]. reflexivity.
Qed.
Lemma tell_delete_ok : forall n l s t p cur e fuel, seg (us_heap s) p cur l e None -> NoDup l -> info (us_heap s) l = map Some t -> length l <= fuel ->
  exists h, tell_delete fuel n cur s = Ok tt (mkU h (us_fresh s) (us_first s) (rev (flat_map (told UdDeleted n) t) ++ us_log s)) /\ forall x, ~ In x l -> h x = us_heap s x.
Proof.
  intros n. induction l as [|x l]; intros s t p cur e fuel H ND I LE.
  - cbn [seg] in H. destruct H as (_ & <-). destruct t; [|discriminate]. exists (us_heap s). split; auto. destruct fuel; destruct s; reflexivity.
  - cbn [seg] in H. destruct H as (-> & c & A & B & H). destruct fuel as [|f]; [simpl in LE; lia|]. destruct t as [|[[k' d] h] t]; [discriminate|].
    cbn [info map] in I. rewrite A in I. cbn [option_map] in I. injection I as EK ED EH I. cbn [tell_delete]. rewrite (rbind_ok _ _ _ _ _ _ _ _ (uload_ok _ _ _ A)). rewrite EK, ED, EH.
    inversion ND as [|? ? NI ND']; subst. set (h1 := hset (us_heap s) x None).
    assert (FR : forall y, In y l -> h1 y = us_heap s y) by (intros y J; apply hset_other; intros ->; auto).
    set (lg := match u_handler c with Some h => mkNotice UdDeleted n (u_key c) (u_data c) h :: us_log s | None => us_log s end).
    destruct (IHl (mkU h1 (us_fresh s) (us_first s) lg) t (Some x) (u_next c) e f) as (h2 & E2 & F2); cbn [us_heap us_fresh us_first us_log]; auto.
    { eapply seg_frame; [|exact H]. auto. } { unfold info in I. rewrite <- I. apply info_frame. intros y J. rewrite FR; auto. } { simpl in LE; lia. }
    exists h2. cbn [us_heap us_fresh us_first us_log] in E2. split.
    + transitivity (tell_delete f n (u_next c) (mkU h1 (us_fresh s) (us_first s) lg)); [unfold lg; destruct (u_handler c); reflexivity|].
      rewrite E2. unfold lg. destruct (u_handler c); cbn [flat_map told rev app]; auto. rewrite <- app_assoc. reflexivity.
    + intros y NY. cbn [us_heap] in F2. rewrite F2 by (intros J; apply NY; simpl; auto). apply hset_other. intros ->. apply NY; simpl; auto.
Qed.
Lemma uinv_ext : forall s q t s', uinv s q t -> us_heap s' = us_heap s -> us_fresh s' = us_fresh s -> us_first s' = us_first s -> uinv s' q t.
Proof. intros s q t s' [A B C D E F] H1 H2 H3. constructor; rewrite ?H1, ?H2, ?H3; auto. Qed.
Lemma delete_user_data_ok : forall s q t n, uinv s q t ->
  exists s' q', delete_user_data n s = Ok tt s' /\ uinv s' q' (upd t n []) /\ us_log s' = rev (flat_map (told UdDeleted n) (t n)) ++ us_log s.
Proof.
  intros s q t n V. unfold delete_user_data. destruct (ui_seg _ _ _ V n) as [e SG].
  destruct (tell_delete_ok n (q n) s (t n) None (us_first s n) e (us_fresh s) SG (ui_nodup _ _ _ V n) (ui_info _ _ _ V n) (uinv_length _ _ _ n V)) as (h & E & F).
  rewrite (rbind_ok _ _ _ _ _ _ _ _ E). eexists. exists (upd q n []). split; [reflexivity|]. cbn [us_log]. split; auto.
  apply (uinv_local s q t n _ []); cbn [us_heap us_fresh us_first]; auto.
  - intros m NE. apply Nat.eqb_neq in NE. rewrite NE. auto.
  - rewrite Nat.eqb_refl. exists None. cbn [seg]. auto.
  - constructor.
  - intros x [].
  - constructor.
Qed.

(** * Meaning *)
Definition clean (t : nat -> list (bytes * option nat * option nat)) : Prop := forall n k h, In (k, None, h) (t n) -> h = None.
Lemma tfind_del : forall k k' t, NoDup (map (fun e => fst (fst e)) t) -> tfind k' (tdel k t) = if bytes_eqb k' k then None else tfind k' t.
Proof.
  induction t as [|[[k0 d] h] t]; intros ND; [cbn; destruct (bytes_eqb k' k); auto|]. cbn [map fst] in ND. inversion ND as [|? ? NI ND']; subst.
  cbn [tdel tfind]. destruct (bytes_eqb k0 k) eqn:E.
  - apply bytes_eqb_iff in E. subst k0. destruct (bytes_eqb_spec k' k) as [->|NE]; [apply tfind_absent; auto|]. rewrite (bytes_eqb_neq k k') by auto. auto.
  - cbn [tfind]. destruct (bytes_eqb_spec k0 k') as [->|NE]; [rewrite E; auto|]. rewrite IHt by auto. auto.
Qed.
Lemma tfind_set : forall k d h k' t, tfind k t <> None -> tfind k' (tset k d h t) = if bytes_eqb k' k then Some (d, h) else tfind k' t.
Proof.
  induction t as [|[[k0 d0] h0] t]; intros F; [exfalso; apply F; auto|]. cbn [tset tfind] in *. destruct (bytes_eqb k0 k) eqn:E; cbn [tfind].
  - apply bytes_eqb_iff in E. subst k0. destruct (bytes_eqb_spec k' k) as [->|NE]; [rewrite bytes_eqb_same; auto|]. rewrite (bytes_eqb_neq k k') by auto. auto.
  - destruct (bytes_eqb_spec k0 k') as [->|NE]; [rewrite E; auto|]. rewrite IHt by auto. auto.
Qed.
Lemma tfind_after : forall k d h k' t, NoDup (map (fun e => fst (fst e)) t) ->
  match tfind k' (tafter k d h t) with Some (Some d', h') => Some (d', h') | _ => None end =
  if bytes_eqb k' k then option_map (fun d' => (d', h)) d else match tfind k' t with Some (Some d', h') => Some (d', h') | _ => None end.
Proof.
  intros k d h k' t ND. unfold tafter. destruct (tfind k t) as [e|] eqn:F.
  - destruct d as [d|]; [rewrite tfind_set by congruence|rewrite tfind_del by auto]; destruct (bytes_eqb k' k); auto.
  - assert (E : match d with Some _ | None => (k, d, h) :: t end = (k, d, h) :: t) by (destruct d; auto). try rewrite E. cbn [tfind].
    destruct (bytes_eqb_spec k' k) as [->|NE]; [rewrite bytes_eqb_same; destruct d; auto|]. rewrite (bytes_eqb_neq k k') by auto. auto.
Qed.
Lemma in_tdel : forall k e t, In e (tdel k t) -> In e t.
Proof. induction t as [|[[k0 d0] h0] t]; intros I; auto. cbn [tdel] in I. destruct (bytes_eqb k0 k); simpl in *; tauto. Qed.
Lemma in_tset : forall k d h e t, In e (tset k d h t) -> In e t \/ e = (k, d, h).
Proof.
  induction t as [|[[k0 d0] h0] t]; intros I; auto. cbn [tset] in I. destruct (bytes_eqb k0 k) eqn:E; simpl in *.
  - apply bytes_eqb_iff in E. subst. intuition.
  - intuition.
Qed.
Lemma clean_after : forall t n k d h, clean t -> tidy_call (USet n k d h) -> clean (upd t n (tafter k d h (t n))).
Proof.
  intros t n k d h C T m k' h' I. unfold upd in I. destruct (Nat.eqb m n); [|eapply C; eauto]. unfold tafter in I. destruct (tfind k (t n)).
  - destruct d as [d|]; [apply in_tset in I; destruct I as [I|I]; [eapply C; eauto|discriminate]|apply in_tdel in I; eapply C; eauto].
  - destruct I as [I|I]; [|eapply C; eauto]. injection I as <- -> <-. cbn in T. destruct h; auto. destruct T.
Qed.
Lemma told_notices : forall op n t m, shows t m -> clean t -> NoDup (map (fun e => fst (fst e)) (t n)) -> notices op n m (rev (flat_map (told op n) (t n))).
Proof.
  intros op n t m S C ND. split.
  - rewrite map_rev. apply NoDup_rev. clear S C. induction (t n) as [|[[k d] h] l]; [constructor|]. cbn [map fst] in ND. inversion ND as [|? ? NI ND']; subst.
    cbn [flat_map told]. destruct h; cbn [app map nt_key]; auto. constructor; auto. intros I. apply NI. apply in_map_iff in I. destruct I as (z & E & I). apply in_flat_map in I.
    destruct I as ([[k' d'] h'] & I & J). cbn [told] in J. destruct h'; [|destruct J]. destruct J as [<-|[]]. cbn in E. subst. apply (in_map (fun e => fst (fst e)) _ _ I).
  - intros z. rewrite <- in_rev, in_flat_map. split.
    + intros ([[k d] h] & I & J). cbn [told] in J. destruct h as [h|]; [|destruct J]. destruct J as [<-|[]]. destruct d as [d|]; [|specialize (C _ _ _ I); discriminate].
      exists k, d, h. split; auto. rewrite S, (tfind_in k (Some d) (Some h)) by auto. auto.
    + intros (k & d & h & E & ->). rewrite S in E. destruct (tfind k (t n)) as [[[d'|] h']|] eqn:F; try discriminate. injection E as -> ->. apply tfind_out in F. exists (k, Some d, Some h). split; auto. simpl; auto.
Qed.
Lemma shows_first : forall t m n k, shows t m -> match tfind k (t n) with Some (d0, _) => d0 | None => None end = option_map fst (m n k).
Proof. intros t m n k S. rewrite S. destruct (tfind k (t n)) as [[[d|] h]|]; auto. Qed.

Lemma ustep_ok : forall o s q t m, uinv s q t -> shows t m ->
  exists s' q' t' ts, uexec o s = Ok (ureturns m o) s' /\ uinv s' q' t' /\ shows t' (umeans m o) /\ (clean t -> tidy_call o -> clean t') /\
    us_log s' = ts ++ us_log s /\ (clean t -> utells m o ts).
Proof.
  intros o s q t m V S. destruct o as [n k d h|n k|n|n]; cbn [uexec ureturns umeans utells].
  - destruct (set_user_data_ok s q t n k d h V) as (s' & q' & E & V' & L). exists s', q', (upd t n (tafter k d h (t n))), []. rewrite <- (shows_first t m n k S).
    split; auto. split; auto. split; [|split; [intros C T; apply clean_after; auto|auto]].
    assert (G : shows (upd t n (tafter k d h (t n))) (fun n' k' => if Nat.eqb n' n && bytes_eqb k' k then option_map (fun d' => (d', h)) d else m n' k')).
    { intros n' k'. unfold upd. destruct (Nat.eqb n' n) eqn:EN; cbn [andb]; [apply Nat.eqb_eq in EN; subst n'|apply S]. rewrite tfind_after by apply (ui_keys _ _ _ V). destruct (bytes_eqb k' k); auto. }
    destruct d; exact G.
  - exists s, q, t, []. rewrite <- (shows_first t m n k S). split; [apply (get_user_data_ok s q t n k V)|]. split; auto.
  - destruct (ui_seg _ _ _ V n) as [e SG].
    pose proof (tell_clone_ok n (q n) s (t n) None (us_first s n) e (us_fresh s) SG (ui_info _ _ _ V n) (uinv_length _ _ _ n V)) as E.
    exists (ulog s (rev (flat_map (told UdCloned n) (t n)) ++ us_log s)), q, t. eexists.
    split; [unfold clone_user_data; unfold bind; rewrite E; reflexivity|]. split; [eapply uinv_ext; eauto|]. split; auto. split; auto. split; [reflexivity|].
    intros C. apply told_notices; auto. apply (ui_keys _ _ _ V).
  - destruct (delete_user_data_ok s q t n V) as (s' & q' & E & V' & L). exists s', q', (upd t n []). eexists. split; [rewrite (rbind_ok _ _ _ _ _ _ _ _ E); reflexivity|]. split; auto. split; [|split; [|split; [exact L|]]].
    + intros n' k'. unfold upd. destruct (Nat.eqb n' n); auto.
    + intros C _ n' k' h' I. unfold upd in I. destruct (Nat.eqb n' n); [destruct I|eapply C; eauto].
    + intros C. apply told_notices; auto. apply (ui_keys _ _ _ V).
Qed.
Lemma ustart_ok : uinv fresh_nodes (fun _ => []) (fun _ => []).
Proof. constructor; intros n; cbn; try constructor; auto; try tauto. exists None. auto. Qed.
Lemma ureach_inv : forall P s m, ureach P s m -> exists q t, uinv s q t /\ shows t m /\ ((forall o, P o -> tidy_call o) -> clean t).
Proof.
  intros P s m R. induction R as [|s m o r s' R (q & t & V & S & C) T E].
  - exists (fun _ => []), (fun _ => []). split; [apply ustart_ok|]. split; [intros n k; reflexivity|]. intros _ n k h [].
  - destruct (ustep_ok o s q t m V S) as (s2 & q' & t' & ts & E2 & V' & S' & C' & _). assert (s2 = s') by congruence. subst. exists q', t'. split; auto.
Qed.

Lemma user_data_is_map : forall P s m o, ureach P s m -> exists s', uexec o s = Ok (ureturns m o) s'.
Proof. intros P s m o R. destruct (ureach_inv P s m R) as (q & t & V & S & _). destruct (ustep_ok o s q t m V S) as (s' & q' & t' & ts & E & _). eauto. Qed.
Lemma user_data_tells : forall s m o r s', ureach tidy_call s m -> uexec o s = Ok r s' -> exists ts, us_log s' = ts ++ us_log s /\ utells m o ts.
Proof.
  intros s m o r s' R E. destruct (ureach_inv _ s m R) as (q & t & V & S & C). destruct (ustep_ok o s q t m V S) as (s2 & q' & t' & ts & E2 & _ & _ & _ & L & T).
  assert (s2 = s') by congruence. subst. exists ts. split; auto.
Qed.
