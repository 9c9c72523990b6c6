(** What the destructors do to the heap, tree by tree. *)
From Coq Require Import List Arith NArith Bool Lia ZifyBool ZifyNat ZifyN.
From Verif Require Import Base HeapModel HeapSpec HeapInv HeapExec HeapTree HeapSplice HeapLoops HeapEdit HeapAttach HeapInsert HeapFrame HeapOps.
Import ListNotations.
Local Open Scope dom_scope.

Definition refz (h : heap) (i : id) : bool :=
  match h i with Some n => N.eqb (n_ref n) 0 | None => false end.

(** The nodes freed with [t], and those that outlive it: referenced nodes with
    no referenced node between them and the root. *)
Fixpoint dead_of (h : heap) (t : rose) : list id :=
  match t with
  | T i ats ks => i :: flat_map (fun k => if refz h (root k) then dead_of h k else []) ats ++
                       flat_map (fun k => if refz h (root k) then dead_of h k else []) ks
  end.
Fixpoint surv_of (h : heap) (t : rose) : list id :=
  match t with
  | T i ats ks => flat_map (fun k => if refz h (root k) then surv_of h k else [root k]) ats ++
                  flat_map (fun k => if refz h (root k) then surv_of h k else [root k]) ks
  end.
Definition kdead (h : heap) (k : rose) : list id := if refz h (root k) then dead_of h k else [].
Definition ksurv (h : heap) (k : rose) : list id := if refz h (root k) then surv_of h k else [root k].

Lemma flat_map_incl : forall A B (f g : A -> list B) l, (forall x, In x l -> incl (f x) (g x)) -> incl (flat_map f l) (flat_map g l).
Proof.
  intros A B f g l H z I. apply in_flat_map in I. destruct I as (x & Ix & J). apply in_flat_map.
  exists x. split; auto. apply (H x Ix). auto.
Qed.
Lemma dead_incl : forall h t, incl (dead_of h t) (nodes t).
Proof.
  intros h t. induction t using rose_ind2. rewrite Forall_forall in *. simpl. intros z [->|I]; [left; auto|]. right.
  apply in_app_or in I. apply in_or_app. destruct I as [I|I]; [left|right]; revert I; apply flat_map_incl;
    intros x Ix y; destruct (refz h (root x)); simpl; try tauto; [apply H|apply H0]; auto.
Qed.
Lemma surv_incl : forall h t, incl (surv_of h t) (nodes t).
Proof.
  intros h t. induction t using rose_ind2. rewrite Forall_forall in *. simpl. intros z I. right.
  apply in_app_or in I. apply in_or_app. destruct I as [I|I]; [left|right]; revert I; apply flat_map_incl;
    intros x Ix y; destruct (refz h (root x)); simpl; try (intros [<-|[]]; apply root_in_nodes); [apply H|apply H0]; auto.
Qed.
Lemma kdead_incl : forall h t, incl (kdead h t) (nodes t).
Proof. intros h t z. unfold kdead. destruct (refz h (root t)); [apply dead_incl|intros []]. Qed.
Lemma ksurv_incl : forall h t, incl (ksurv h t) (nodes t).
Proof. intros h t z. unfold ksurv. destruct (refz h (root t)); [apply surv_incl|]. intros [<-|[]]. apply root_in_nodes. Qed.

Lemma flat_map_ext_in : forall A B (f g : A -> list B) l, (forall x, In x l -> f x = g x) -> flat_map f l = flat_map g l.
Proof. induction l; simpl; intros; auto. rewrite H by auto. rewrite IHl; auto. Qed.

Lemma dead_ext : forall h h' t, (forall j, In j (flat_map nodes (atts t ++ kids t)) -> refz h' j = refz h j) ->
  dead_of h' t = dead_of h t /\ surv_of h' t = surv_of h t.
Proof.
  intros h h' t. induction t using rose_ind2. rewrite Forall_forall in *. simpl. intros E.
  rewrite flat_map_app in E.
  assert (Q : forall k, In k ats \/ In k ks -> refz h' (root k) = refz h (root k) /\ dead_of h' k = dead_of h k /\ surv_of h' k = surv_of h k).
  { intros k I. split.
    - apply E. apply in_or_app. destruct I; [left|right]; apply in_flat_map; exists k; split; auto; apply root_in_nodes.
    - assert (EE : forall j, In j (flat_map nodes (atts k ++ kids k)) -> refz h' j = refz h j).
      { intros j J. apply E. apply in_or_app. destruct I; [left|right]; apply in_flat_map; exists k; split; auto;
        destruct k; simpl in *; rewrite flat_map_app in J; auto. }
      destruct I; [apply H|apply H0]; auto. }
  assert (QD : forall l, (forall k, In k l -> In k ats \/ In k ks) ->
     flat_map (fun k => if refz h' (root k) then dead_of h' k else []) l = flat_map (fun k => if refz h (root k) then dead_of h k else []) l /\
     flat_map (fun k => if refz h' (root k) then surv_of h' k else [root k]) l = flat_map (fun k => if refz h (root k) then surv_of h k else [root k]) l).
  { intros l IL. split; apply flat_map_ext_in; intros x Ix; destruct (Q x) as (A & B & C); auto; rewrite A, ?B, ?C; auto. }
  destruct (QD ats) as [A1 A2]; auto. destruct (QD ks) as [B1 B2]; auto. rewrite A1, A2, B1, B2. auto.
Qed.

Lemma kext : forall h h' t, (forall j, In j (nodes t) -> h' j = h j) -> kdead h' t = kdead h t /\ ksurv h' t = ksurv h t.
Proof.
  intros h h' t E. assert (R : forall j, In j (nodes t) -> refz h' j = refz h j) by (intros j J; unfold refz; rewrite E; auto).
  destruct (dead_ext h h' t) as [A B].
  { intros j J. apply R. destruct t; simpl in *. rewrite flat_map_app in J. auto. }
  unfold kdead, ksurv. rewrite A, B, (R (root t) (root_in_nodes t)). auto.
Qed.

(** The heap after a tear-down: [F] is gone, [S] is parentless and pending in [d]. *)
Record torn (X : id -> Prop) (h h' : heap) (d : id) (nd : node) (F S : list id) : Prop := mkTorn {
  to_dead : forall j, In j F -> h' j = None;
  to_keep : forall j, ~ In j F -> ~ In j S -> j <> d -> ~ X j -> h' j = h j;
  to_surv : forall j n, In j S -> h j = Some n -> h' j = Some (set_pending true (set_parent None n));
  to_doc : h' d = Some (set_pend (n_pend nd ++ S) nd)
}.

Definition nobody : id -> Prop := fun _ => False.

(** Ready to be torn down: everything below belongs to [d] and hangs on its parent only. *)
Definition good (h : heap) (d : id) (l : list id) : Prop :=
  forall j m, In j l -> h j = Some m ->
    n_owner m = Some d /\ n_pending m = false /\ n_type m <> DOCUMENT /\ (n_type m <> ELEMENT -> n_attrs m = []).

Lemma good_ext : forall h h' d l, good h d l -> (forall j, In j l -> h' j = h j) -> good h' d l.
Proof. intros h h' d l G E j m I H. apply (G j); auto. rewrite <- E; auto. Qed.
Lemma good_incl : forall h d l l', good h d l -> incl l' l -> good h d l'.
Proof. intros h d l l' G I j m J H. apply (G j); auto. Qed.

Lemma repr_same : forall h h' t, repr h t -> (forall j, In j (nodes t) -> h' j = h j) -> repr h' t.
Proof.
  intros h h' t R E. apply (repr_frame_in h h' t R). intros j n I H. exists n. split; [rewrite E; auto|repeat split; auto].
Qed.

Section Body.
  Variables (f : nat).
  Let D := destroy f.
  Hypothesis IHD : forall t s d nd, length (nodes t) <= f -> repr (s_heap s) t -> NoDup (nodes t) ->
    s_heap s d = Some nd -> ~ In d (nodes t) -> good (s_heap s) d (nodes t) ->
    exists h', D (root t) s = Ok tt (withh s h') /\ torn nobody (s_heap s) h' d nd (dead_of (s_heap s) t) (surv_of (s_heap s) t).

  Lemma kid_ok : forall k s d nd, length (nodes k) <= f -> repr (s_heap s) k -> NoDup (nodes k) ->
    s_heap s d = Some nd -> ~ In d (nodes k) -> good (s_heap s) d (nodes k) ->
    exists h', (upd (root k) (set_parent None) ;;; try_destroy_with D (root k)) s = Ok tt (withh s h') /\
      torn nobody (s_heap s) h' d nd (kdead (s_heap s) k) (ksurv (s_heap s) k).
  Proof.
    intros k s d nd SZ R ND Hd NI G.
    destruct (repr_live _ _ R _ (root_in_nodes k)) as (n & Hn).
    set (h := s_heap s) in *. set (c := root k) in *.
    step (upd_ok s c n (set_parent None) Hn). fold h.
    set (h1 := hmod h c (set_parent None)).
    assert (Hn1 : h1 c = Some (set_parent None n)) by (unfold h1; rewrite hmod_same, Hn; auto).
    unfold try_destroy_with. step (load_ok (withh s h1) c _ Hn1). cbn [n_parent set_parent n_ref n_pending n_owner].
    destruct (G c n (root_in_nodes k) Hn) as (OW & PE & TD & AT).
    assert (CD : c <> d) by (intros Q; apply NI; rewrite <- Q; exact (root_in_nodes k)).
    assert (Hd1 : h1 d = Some nd) by (unfold h1; rewrite hmod_other; auto).
    unfold kdead, ksurv. unfold refz. fold c. rewrite Hn.
    destruct (N.eqb (n_ref n) 0) eqn:RZ.
    - assert (R1 : repr h1 k).
      { apply (repr_frame h h1 k R).
        - intros m Hm. exists (set_parent None m). split; [unfold h1; fold c; rewrite hmod_same; fold c in Hm; rewrite Hm; auto|repeat split].
        - intros q Iq j m Ij Hj. exists m. split; [|repeat split]. unfold h1. rewrite hmod_other; auto.
          intros ->. destruct k as [i ats ks]. simpl in *. inversion ND; subst. apply H1.
          apply in_app_or in Iq. apply in_or_app. destruct Iq; [left|right]; apply in_flat_map; eauto. }
      destruct (IHD k (withh s h1) d nd SZ R1 ND Hd1 NI) as (h' & E & TO).
      { intros j m I Hj. rewrite withh_heap in Hj. unfold h1 in Hj. apply hmod_inv in Hj. destruct Hj as (m' & Hm & ->).
        destruct (G j m' I Hm) as (A & B & C & F). destruct (Nat.eqb j c); auto. }
      rewrite withh_heap in TO. fold c in E. rewrite E. exists h'. split; [reflexivity|].
      assert (RE : forall j, refz h1 j = refz h j).
      { intros j. unfold refz, h1, hmod. destruct (Nat.eqb j c); auto. destruct (h j); auto. }
      destruct (dead_ext h h1 k) as [D1 D2]; auto. rewrite D1, D2 in TO.
      destruct TO as [T1 T2 T3 T4]. constructor; auto.
      + intros j A B C _. rewrite T2; auto. unfold h1. rewrite hmod_other; auto.
        intros ->. apply A. destruct k; left; reflexivity.
      + intros j m A B. apply T3; auto. unfold h1. rewrite hmod_other; auto. intros ->.
        destruct k as [i ats ks]. simpl in *. inversion ND; subst. apply H1.
        apply in_app_or in A. apply in_or_app. destruct A as [A|A]; [left|right]; revert A; apply flat_map_incl; intros x Ix y;
          destruct (refz h (root x)); try apply surv_incl; intros [<-|[]]; apply root_in_nodes.
    - rewrite PE, OW. rewrite (bind_ok _ _ _ _ _ _ _ _ (deref_ok d _)). unfold pend_append.
      step (upd_ok (withh s h1) d nd (fun m => set_pend (n_pend m ++ [c]) m) Hd1). rewrite withh_withh, withh_heap.
      set (h2 := hmod h1 d _).
      assert (Hn2 : h2 c = Some (set_parent None n)) by (unfold h2; rewrite hmod_other; auto).
      rewrite (upd_ok (withh s h2) c _ (set_pending true) Hn2). rewrite withh_withh, withh_heap. set (h3 := hmod h2 c _).
      exists h3. split; [reflexivity|]. constructor.
      + intros j [].
      + intros j _ B C _. assert (j <> c) by (intros ->; apply B; left; auto). unfold h3, h2, h1. rewrite !hmod_other; auto.
      + intros j m [<-|[]] Hm. unfold h3. rewrite hmod_same, Hn2. assert (m = n) by congruence; subst. reflexivity.
      + unfold h3. rewrite hmod_other by auto. unfold h2. rewrite hmod_same, Hd1. reflexivity.
  Qed.

  Lemma torn_trans : forall X h h1 h2 d nd nd1 F1 S1 F2 S2,
    torn X h h1 d nd F1 S1 -> h1 d = Some nd1 -> torn X h1 h2 d nd1 F2 S2 ->
    (forall j, In j F1 \/ In j S1 -> ~ (In j F2 \/ In j S2)) ->
    (forall j, In j F1 \/ In j S1 \/ In j F2 \/ In j S2 -> ~ X j /\ j <> d) ->
    (forall j, In j F1 -> In j S1 -> False) ->
    torn X h h2 d nd (F1 ++ F2) (S1 ++ S2).
  Proof.
    intros X h h1 h2 d nd nd1 F1 S1 F2 S2 [A1 A2 A3 A4] H1 [B1 B2 B3 B4] DJ NX DJ1. constructor.
    - intros j I. apply in_app_or in I. destruct I as [I|I]; auto. destruct (NX j) as [Q1 Q2]; auto.
      rewrite B2; [apply A1; auto| | |auto|auto]; intros J; apply (DJ j); auto.
    - intros j I J E NXj. rewrite in_app_iff in I, J. rewrite B2, A2; auto.
    - intros j n I Hj. apply in_app_or in I. destruct I as [I|I].
      + destruct (NX j) as [Q1 Q2]; auto. rewrite B2; [apply A3; auto| | |auto|auto]; intros J; apply (DJ j); auto.
      + destruct (NX j) as [Q1 Q2]; auto. apply B3; auto. rewrite A2; [auto| | |auto|auto]; intros J; apply (DJ j); auto.
    - rewrite B4. rewrite A4 in H1. inversion H1; subst nd1. cbn [n_pend set_pend]. rewrite app_assoc. reflexivity.
  Qed.

  Lemma nodup_cons_disj : forall k ks, NoDup (flat_map nodes (k :: ks)) ->
    NoDup (nodes k) /\ NoDup (flat_map nodes ks) /\ forall j, In j (nodes k) -> ~ In j (flat_map nodes ks).
  Proof. intros k ks H. simpl in H. apply NoDup_app_inv in H. tauto. Qed.

  Lemma surv_dead_disj : forall h t, NoDup (nodes t) -> forall j, In j (dead_of h t) -> In j (surv_of h t) -> False.
  Proof.
    intros h t. induction t using rose_ind2. rewrite Forall_forall in *. simpl. intros ND j I J.
    inversion ND; subst. rewrite <- flat_map_app in *.
    assert (HK : forall k, In k (ats ++ ks) -> NoDup (nodes k) -> forall j, In j (dead_of h k) -> In j (surv_of h k) -> False).
    { intros k Ik. apply in_app_or in Ik. destruct Ik; [apply H|apply H0]; auto. }
    destruct I as [<-|I].
    - apply H3. revert J. apply flat_map_incl. intros x Ix y. destruct (refz h (root x)); [apply surv_incl|].
      intros [<-|[]]; apply root_in_nodes.
    - clear H H0 ND H3. revert H4 HK I J. generalize (ats ++ ks). induction l as [|k l]; intros ND HK I J; [destruct I|].
      destruct (nodup_cons_disj _ _ ND) as (N1 & N2 & N3). simpl in I, J. apply in_app_or in I. apply in_app_or in J.
      assert (IK : In j (if refz h (root k) then dead_of h k else []) -> In j (nodes k)) by exact (kdead_incl h k j).
      assert (JK : In j (if refz h (root k) then surv_of h k else [root k]) -> In j (nodes k)) by exact (ksurv_incl h k j).
      assert (IL : In j (flat_map (fun k => if refz h (root k) then dead_of h k else []) l) -> In j (flat_map nodes l)).
      { apply flat_map_incl. intros x _. exact (kdead_incl h x). }
      assert (JL : In j (flat_map (fun k => if refz h (root k) then surv_of h k else [root k]) l) -> In j (flat_map nodes l)).
      { apply flat_map_incl. intros x _. exact (ksurv_incl h x). }
      destruct I as [I|I], J as [J|J].
      + destruct (refz h (root k)); [|destruct I]. apply (HK k) with (j := j); auto. left; auto.
      + apply (N3 j); auto.
      + apply (N3 j); auto.
      + apply IHl; auto. intros q Iq. apply HK. right; auto.
  Qed.
  Lemma kdisj : forall h k, NoDup (nodes k) -> forall j, In j (kdead h k) -> In j (ksurv h k) -> False.
  Proof.
    intros h k ND j. unfold kdead, ksurv. destruct (refz h (root k)); [apply surv_dead_disj; auto|intros []].
  Qed.
  Lemma ksdead_incl : forall h ks, incl (flat_map (kdead h) ks) (flat_map nodes ks).
  Proof. intros. apply flat_map_incl. intros x _. apply kdead_incl. Qed.
  Lemma kssurv_incl : forall h ks, incl (flat_map (ksurv h) ks) (flat_map nodes ks).
  Proof. intros. apply flat_map_incl. intros x _. apply ksurv_incl. Qed.

  Lemma torn_step_facts : forall X h h1 d nd k, torn X h h1 d nd (kdead h k) (ksurv h k) ->
    forall j, ~ In j (nodes k) -> j <> d -> ~ X j -> h1 j = h j.
  Proof. intros X h h1 d nd k TO j A B C. apply (to_keep _ _ _ _ _ _ _ TO); auto; intros I; apply A; [eapply kdead_incl|eapply ksurv_incl]; eauto. Qed.

  Lemma kids_ok : forall ks s g d nd p pv, length ks <= g ->
    (forall k, In k ks -> length (nodes k) <= f) ->
    seg (s_heap s) p pv (map root ks) None -> Forall (repr (s_heap s)) ks -> NoDup (flat_map nodes ks) ->
    s_heap s d = Some nd -> ~ In d (flat_map nodes ks) -> good (s_heap s) d (flat_map nodes ks) ->
    exists h', fin_children g D (hd_error (map root ks)) s = Ok tt (withh s h') /\
      torn nobody (s_heap s) h' d nd (flat_map (kdead (s_heap s)) ks) (flat_map (ksurv (s_heap s)) ks).
  Proof.
    induction ks as [|k ks]; intros s g d nd p pv LG SZ SG RS ND Hd NI G.
    - exists (s_heap s). split; [destruct g, s; reflexivity|]. constructor; simpl; auto; try tauto.
      rewrite app_nil_r. rewrite Hd. f_equal. destruct nd; reflexivity.
    - destruct g as [|g]; [simpl in LG; lia|]. destruct (nodup_cons_disj _ _ ND) as (N1 & N2 & N3).
      inversion RS; subst. set (h := s_heap s) in *. cbn [map hd_error fin_children].
      destruct SG as [(n & Hn & _ & Pn & _ & Nx) SG].
      step (load_ok s (root k) n Hn). simpl in NI. rewrite in_app_iff in NI.
      destruct (kid_ok k s d nd) as (h1 & E & TO); auto. { apply SZ; left; auto. }
      { eapply good_incl; eauto. simpl. intros z I. apply in_or_app; auto. }
      fold h in TO. pose proof (torn_step_facts _ _ _ _ _ _ TO) as KE.
      change ((upd (root k) (set_parent None);;; (try_destroy_with D (root k);;; fin_children g D (n_next n))) s) with
        (bind (upd (root k) (set_parent None)) (fun _ => bind (try_destroy_with D (root k)) (fun _ => fin_children g D (n_next n))) s).
      rewrite <- bind_assoc. step E.
      assert (Hd1 := to_doc _ _ _ _ _ _ _ TO). set (nd1 := set_pend _ nd) in Hd1.
      assert (EQ : forall j, In j (flat_map nodes ks) -> h1 j = h j).
      { intros j J. apply KE; auto. { intros I. exact (N3 _ I J). } intros ->. tauto. }
      assert (NX : n_next n = hd_error (map root ks)) by (rewrite Nx; destruct ks; reflexivity). rewrite NX.
      destruct (IHks (withh s h1) g d nd1 p (Some (root k))) as (h2 & E2 & TO2).
      + simpl in LG; lia.
      + intros; apply SZ; right; auto.
      + rewrite withh_heap. eapply seg_ext; [|exact SG]. intros c m I Hc. exists m. split; [|repeat split].
        rewrite EQ; auto. apply in_map_iff in I. destruct I as (q & <- & Iq). apply in_flat_map. exists q. split; auto. apply root_in_nodes.
      + rewrite withh_heap. rewrite Forall_forall in *. intros q Iq. apply (repr_same h); auto. intros j J. apply EQ. apply in_flat_map; eauto.
      + auto.
      + exact Hd1.
      + tauto.
      + rewrite withh_heap. apply (good_ext h); auto. eapply good_incl; eauto. simpl. intros z I. apply in_or_app; auto.
      + rewrite E2, withh_withh. exists h2. split; auto. rewrite withh_heap in TO2.
        assert (EE : flat_map (kdead h1) ks = flat_map (kdead h) ks /\ flat_map (ksurv h1) ks = flat_map (ksurv h) ks).
        { split; apply flat_map_ext_in; intros q Iq; apply kext; intros j J; apply EQ; apply in_flat_map; eauto. }
        destruct EE as [E3 E4]. rewrite E3, E4 in TO2. simpl.
        assert (I1 : forall j, In j (kdead h k) \/ In j (ksurv h k) -> In j (nodes k)).
        { intros j [I|I]; [eapply kdead_incl|eapply ksurv_incl]; eauto. }
        assert (I2 : forall j, In j (flat_map (kdead h) ks) \/ In j (flat_map (ksurv h) ks) -> In j (flat_map nodes ks)).
        { intros j [I|I]; [eapply ksdead_incl|eapply kssurv_incl]; eauto. }
        eapply torn_trans; eauto.
        * intros j A B. exact (N3 j (I1 _ A) (I2 _ B)).
        * intros j Q. split; [intros []|]. intros ->. apply NI.
          destruct Q as [Q|[Q|Q]]; [left; apply I1; auto|left; apply I1; auto|right; apply I2; auto].
        * apply kdisj; auto.
  Qed.

  Lemma atts_ok : forall ks s d nd e ne,
    (forall k, In k ks -> length (nodes k) <= f) ->
    Forall (fun k => is_attr_of (s_heap s) e (root k)) ks -> Forall (repr (s_heap s)) ks -> NoDup (flat_map nodes ks) ->
    s_heap s d = Some nd -> ~ In d (flat_map nodes ks) -> good (s_heap s) d (flat_map nodes ks) ->
    s_heap s e = Some ne -> ~ In e (flat_map nodes ks) -> e <> d ->
    exists h' ne', attrs_destroy D (map root ks) s = Ok tt (withh s h') /\
      torn (eq e) (s_heap s) h' d nd (flat_map (kdead (s_heap s)) ks) (flat_map (ksurv (s_heap s)) ks) /\
      h' e = Some ne' /\ (ne' = ne \/ ne' = set_classes [] ne).
  Proof.
    induction ks as [|k ks]; intros s d nd e ne SZ AT RS ND Hd NI G He NE ED.
    - exists (s_heap s), ne. split; [destruct s; reflexivity|]. split; [|auto]. constructor; simpl; auto; try tauto.
      rewrite app_nil_r. rewrite Hd. f_equal. destruct nd; reflexivity.
    - destruct (nodup_cons_disj _ _ ND) as (N1 & N2 & N3).
      inversion RS; subst. inversion AT; subst. set (h := s_heap s) in *. cbn [map attrs_destroy].
      destruct H3 as (n & Hn & Tn & Pn). simpl in NI, NE. rewrite in_app_iff in NI, NE.
      step (load_ok s (root k) n Hn).
      destruct (G (root k) n) as (OW & PE & TD & _); auto. { simpl. apply in_or_app. left. apply root_in_nodes. }
      rewrite OW. rewrite (bind_ok _ _ _ _ _ _ _ _ (deref_ok d _)). step (load_ok s d nd Hd).
      set (cls := match n_ns n with None => match n_name n with Some nm => if bytes_eqb nm class_string then true else false | None => false end | _ => false end).
      assert (CL : exists h0 ne0, (match n_ns n, n_name n with None, Some nm => if bytes_eqb nm class_string then e0 <- deref (n_parent n);; upd e0 (set_classes []) else ret tt | _, _ => ret tt end) s = Ok tt (withh s h0) /\ (forall j, j <> e -> h0 j = h j) /\ h0 e = Some ne0 /\ (ne0 = ne \/ ne0 = set_classes [] ne)).
      { assert (RT : exists h0 ne0, ret tt s = Ok tt (withh s h0) /\ (forall j, j <> e -> h0 j = h j) /\ h0 e = Some ne0 /\ (ne0 = ne \/ ne0 = set_classes [] ne)).
        { exists h, ne. split; [unfold h; destruct s; reflexivity|]. auto. }
        destruct (n_ns n); auto. destruct (n_name n) as [nm|]; auto. destruct (bytes_eqb nm class_string); auto.
        rewrite Pn. rewrite (bind_ok _ _ _ _ _ _ _ _ (deref_ok e _)). exists (hmod h e (set_classes [])), (set_classes [] ne).
        split; [apply (upd_ok s e ne); auto|]. split; [intros; apply hmod_other; auto|]. split; auto. rewrite hmod_same, He. reflexivity. }
      clear cls. destruct CL as (h0 & ne0 & E0 & EQ0 & He0 & CE). step E0.
      assert (KN0 : forall j, In j (nodes k) -> h0 j = h j) by (intros j J; apply EQ0; intros ->; tauto).
      destruct (kid_ok k (withh s h0) d nd) as (h1 & E & TO); auto. { apply SZ; left; auto. }
      { rewrite withh_heap. apply (repr_same h); auto. }
      { rewrite withh_heap, EQ0; auto. }
      { rewrite withh_heap. apply (good_ext h); auto. eapply good_incl; eauto. simpl. intros z I. apply in_or_app; auto. }
      rewrite withh_heap in TO. destruct (kext h h0 k KN0) as [KD KS]. 
      pose proof (torn_step_facts _ _ _ _ _ _ TO) as KE. rewrite KD, KS in TO.
      rewrite <- bind_assoc. step E.
      assert (Hd1 := to_doc _ _ _ _ _ _ _ TO). set (nd1 := set_pend _ nd) in Hd1.
      assert (He1 : h1 e = Some ne0). { rewrite KE; auto. }
      assert (EQ : forall j, In j (flat_map nodes ks) -> h1 j = h j).
      { intros j J. assert (j <> e) by (intros ->; tauto). rewrite KE, EQ0; auto. { intros I. exact (N3 _ I J). } intros ->. tauto. }
      destruct (IHks (withh s h1) d nd1 e ne0) as (h2 & ne2 & E2 & TO2 & He2 & CE2); auto.
      + intros; apply SZ; right; auto.
      + rewrite withh_heap. rewrite Forall_forall in *. intros q Iq. destruct (H4 q Iq) as (m & A & B & C). exists m. split; auto.
        rewrite EQ; auto. apply in_flat_map. exists q. split; auto. apply root_in_nodes.
      + rewrite withh_heap. rewrite Forall_forall in *. intros q Iq. apply (repr_same h); auto. intros j J. apply EQ. apply in_flat_map; eauto.
      + rewrite withh_heap. apply (good_ext h); auto. eapply good_incl; eauto. simpl. intros z I. apply in_or_app; auto.
      + change (s_heap (withh (withh s h0) h1)) with h1 in *. change (withh (withh s h0) h1) with (withh s h1) in *.
        rewrite withh_heap in *. rewrite E2, withh_withh. exists h2, ne2. split; auto.
        assert (EE : flat_map (kdead h1) ks = flat_map (kdead h) ks /\ flat_map (ksurv h1) ks = flat_map (ksurv h) ks).
        { split; apply flat_map_ext_in; intros q Iq; apply kext; intros j J; apply EQ; apply in_flat_map; eauto. }
        destruct EE as [E3 E4]. rewrite E3, E4 in TO2. simpl.
        assert (I1 : forall j, In j (kdead h k) \/ In j (ksurv h k) -> In j (nodes k)).
        { intros j [I|I]; [eapply kdead_incl|eapply ksurv_incl]; eauto. }
        assert (I2 : forall j, In j (flat_map (kdead h) ks) \/ In j (flat_map (ksurv h) ks) -> In j (flat_map nodes ks)).
        { intros j [I|I]; [eapply ksdead_incl|eapply kssurv_incl]; eauto. }
        split.
        * assert (TO' : torn (eq e) h h1 d nd (kdead h k) (ksurv h k)).
          { destruct TO as [T1 T2 T3 T4]. constructor; auto.
            - intros j A B C Q. rewrite T2, EQ0; auto; intros [].
            - intros j m A B. apply T3; auto. rewrite EQ0; auto. intros ->. apply NE. left. apply I1; auto. }
          eapply torn_trans; eauto.
          -- intros j A B. exact (N3 j (I1 _ A) (I2 _ B)).
          -- intros j Q. assert (In j (nodes k) \/ In j (flat_map nodes ks)).
             { destruct Q as [Q|[Q|Q]]; [left; apply I1; auto|left; apply I1; auto|right; apply I2; auto]. }
             split; intros ->; tauto.
          -- apply kdisj; auto.
        * split; auto. destruct CE2 as [->| ->]; auto. destruct CE as [->| ->]; auto.
  Qed.

  (** What is left of a destructor once everything below the node is dealt with. *)
  Definition rest (i : id) : M st unit :=
    (n <- load i ;;
     if n_pending n then
       d <- deref (n_owner n) ;;
       pend_del d i ;;;
       when (negb (ntype_eqb (n_type n) DOCUMENT)) (doc_try_destroy_with D d)
     else ret tt) ;;;
    free i.

  Lemma core_ok : forall i ats ks s d nd n, length (nodes (T i ats ks)) <= S f ->
    repr (s_heap s) (T i ats ks) -> NoDup (nodes (T i ats ks)) ->
    s_heap s d = Some nd -> ~ In d (nodes (T i ats ks)) -> good (s_heap s) d (flat_map nodes (ats ++ ks)) ->
    s_heap s i = Some n -> n_type n <> DOCUMENT -> (n_type n <> ELEMENT -> n_attrs n = []) ->
    exists h' n', destroy (S f) i s = rest i (withh s h') /\
      torn (eq i) (s_heap s) h' d nd (flat_map (kdead (s_heap s)) (ats ++ ks)) (surv_of (s_heap s) (T i ats ks)) /\
      h' i = Some n' /\ n_type n' = n_type n /\ n_pending n' = n_pending n /\ n_owner n' = n_owner n.
  Proof.
    intros i ats ks s d nd n SZ R ND Hd NI G Hi TD TE. set (h := s_heap s) in *.
    destruct (repr_inv _ _ _ _ R) as (n' & Hi' & E1 & E2 & E3 & E4 & E5 & E6 & E7 & E8).
    assert (n' = n) by congruence; subst n'. simpl in SZ, ND, NI. inversion ND as [|? ? NDi NDr]; subst.
    rewrite app_length in SZ. destruct (NoDup_app_inv _ _ _ NDr) as (NA & NK & NAK). rewrite in_app_iff in NI.
    assert (ID : i <> d) by (intros ->; tauto).
    assert (SA : forall k, In k ats -> length (nodes k) <= f).
    { intros k I. assert (length (nodes k) <= length (flat_map nodes ats)); [|lia].
      clear - I. induction ats; [destruct I|]. simpl. rewrite app_length. destruct I as [->|I]; [lia|]. specialize (IHats I). lia. }
    assert (SK : forall k, In k ks -> length (nodes k) <= f).
    { intros k I. assert (length (nodes k) <= length (flat_map nodes ks)); [|lia].
      clear - I. induction ks; [destruct I|]. simpl. rewrite app_length. destruct I as [->|I]; [lia|]. specialize (IHks I). lia. }
    assert (LK : length ks <= f).
    { assert (length ks <= length (flat_map nodes ks)); [|lia]. clear. induction ks as [|k ks]; simpl; auto. rewrite app_length.
      destruct k; simpl. lia. }
    assert (GA : good h d (flat_map nodes ats)) by (apply (good_incl h d (flat_map nodes (ats ++ ks))); [auto|]; rewrite flat_map_app; intros z I; apply in_or_app; auto).
    assert (GK : good h d (flat_map nodes ks)) by (apply (good_incl h d (flat_map nodes (ats ++ ks))); [auto|]; rewrite flat_map_app; intros z I; apply in_or_app; auto).
    rewrite in_app_iff in NDi.
    (* attributes *)
    assert (PA : exists h1 n1,
      (forall K : M st unit, (match n_type n with
         | ELEMENT => attrs_destroy D (n_attrs n) ;;; upd i (fun n => set_classes [] (set_attrs [] n)) ;;; K
         | _ => K end) s = K (withh s h1)) /\
      torn (eq i) h h1 d nd (flat_map (kdead h) ats) (flat_map (ksurv h) ats) /\
      h1 i = Some n1 /\ n_type n1 = n_type n /\ n_pending n1 = n_pending n /\ n_owner n1 = n_owner n /\ n_first n1 = n_first n).
    { destruct (ntype_eqb (n_type n) ELEMENT) eqn:TT.
      - apply ntype_eqb_eq in TT. rewrite E3.
        destruct (atts_ok ats s d nd i n SA E6 E7 NA Hd) as (h1 & n1 & X1 & X2 & X3 & X4); auto; try tauto.
        exists (hmod h1 i (fun n => set_classes [] (set_attrs [] n))), (set_classes [] (set_attrs [] n1)).
        split; [|split; [|split]].
        + intros K. rewrite TT. step X1. 
          rewrite (bind_ok _ _ _ _ _ _ _ _ (upd_ok (withh s h1) i n1 _ X3)). reflexivity.
        + destruct X2 as [T1 T2 T3 T4]. constructor.
          * intros j J. apply hmod_none. auto.
          * intros j A B C X. rewrite hmod_other; auto.
          * intros j m A B. rewrite hmod_other; auto. intros ->. apply NDi. left. eapply kssurv_incl; eauto.
          * rewrite hmod_other; auto.
        + rewrite hmod_same, X3. reflexivity.
        + destruct X4 as [->| ->]; simpl; auto.
      - apply ntype_eqb_neq in TT. specialize (TE TT). rewrite E3 in TE. destruct ats; [|discriminate].
        exists h, n. split; [|split].
        + intros K. unfold h. replace (withh s (s_heap s)) with s by (destruct s; reflexivity).
          destruct (n_type n); try reflexivity. congruence.
        + constructor; simpl; auto; try tauto. rewrite app_nil_r. rewrite Hd. f_equal. destruct nd; reflexivity.
        + auto. }
    destruct PA as (h1 & n1 & XP & TO1 & H1i & TY1 & PE1 & OW1 & FI1).
    assert (EQ : forall j, In j (flat_map nodes ks) -> h1 j = h j).
    { intros j J. apply (to_keep _ _ _ _ _ _ _ TO1).
      - intros I. apply (NAK j); auto. eapply ksdead_incl; eauto.
      - intros I. apply (NAK j); auto. eapply kssurv_incl; eauto.
      - intros ->; tauto.
      - intros <-; tauto. }
    assert (Hd1 := to_doc _ _ _ _ _ _ _ TO1). set (nd1 := set_pend _ nd) in Hd1.
    destruct (kids_ok ks (withh s h1) f d nd1 i None) as (h2 & X2 & TO2); auto.
    { rewrite withh_heap. eapply seg_ext; [|exact E4]. intros c m I Hc. exists m. split; [|repeat split].
      rewrite EQ; auto. apply in_map_iff in I. destruct I as (q & <- & Iq). apply in_flat_map. exists q. split; auto. apply root_in_nodes. }
    { rewrite withh_heap. rewrite Forall_forall in *. intros q Iq. apply (repr_same h); auto. intros j J. apply EQ. apply in_flat_map; eauto. }
    { rewrite withh_heap. apply (good_ext h); auto. }
    rewrite withh_heap, withh_withh in *.
    assert (EE : flat_map (kdead h1) ks = flat_map (kdead h) ks /\ flat_map (ksurv h1) ks = flat_map (ksurv h) ks).
    { split; apply flat_map_ext_in; intros q Iq; apply kext; intros j J; apply EQ; apply in_flat_map; eauto. }
    destruct EE as [E9 E10]. rewrite E9, E10 in TO2.
    assert (H2i : h2 i = Some n1).
    { rewrite (to_keep _ _ _ _ _ _ _ TO2); auto.
      - intros I. apply NDi. right. eapply ksdead_incl; eauto.
      - intros I. apply NDi. right. eapply kssurv_incl; eauto. }
    exists (hmod h2 i clear_node), (clear_node n1).
    split; [|split; [|split]].
    - cbn [destroy]. step (load_ok s i n Hi). fold D.
      assert (EQM : forall K1 : M st unit, (match n_type n with
            | ELEMENT => attrs_destroy D (n_attrs n);;; upd i (fun n => set_classes [] (set_attrs [] n));;; (finalise_with f D i;;; free i)
            | DOCUMENT => K1
            | _ => finalise_with f D i;;; free i end) s = (finalise_with f D i;;; free i) (withh s h1)).
      { intros K1. rewrite <- (XP (finalise_with f D i;;; free i)). destruct (n_type n); try reflexivity. congruence. }
      rewrite EQM. unfold rest. unfold finalise_with. rewrite !bind_assoc.
      step (load_ok (withh s h1) i n1 H1i). rewrite FI1, E1. rewrite !bind_assoc. step X2. rewrite bind_assoc.
      rewrite (bind_ok _ _ _ _ _ _ _ _ (upd_ok (withh s h2) i n1 _ H2i)). rewrite ?bind_assoc. reflexivity.
    - assert (TO2' : torn (eq i) h1 h2 d (set_pend (n_pend nd ++ flat_map (ksurv h) ats) nd) (flat_map (kdead h) ks) (flat_map (ksurv h) ks)).
      { destruct TO2 as [T1 T2 T3 T4]. constructor; auto. }
      rewrite flat_map_app.
      assert (TT : torn (eq i) h h2 d nd (flat_map (kdead h) ats ++ flat_map (kdead h) ks) (surv_of h (T i ats ks))).
      { cbn [surv_of]. change (fun k => if refz h (root k) then surv_of h k else [root k]) with (ksurv h).
        eapply torn_trans; eauto.
        - intros j A B. apply (NAK j).
          + destruct A as [A|A]; [eapply ksdead_incl|eapply kssurv_incl]; eauto.
          + destruct B as [B|B]; [eapply ksdead_incl|eapply kssurv_incl]; eauto.
        - intros j Q. assert (In j (flat_map nodes ats) \/ In j (flat_map nodes ks)).
          { destruct Q as [Q|[Q|[Q|Q]]]; first [left; eapply ksdead_incl; eassumption|left; eapply kssurv_incl; eassumption
              |right; eapply ksdead_incl; eassumption|right; eapply kssurv_incl; eassumption]. }
          split; intros ->; tauto.
        - intros j A B. refine (surv_dead_disj h (T i ats []) _ j _ _).
          + simpl. rewrite app_nil_r. constructor; auto.
          + right. simpl. apply in_or_app. left. exact A.
          + simpl. apply in_or_app. left. exact B. }
      destruct TT as [T1 T2 T3 T4]. constructor.
      + intros j J. apply hmod_none. auto.
      + intros j A B C X. rewrite hmod_other; auto.
      + intros j m A B. rewrite hmod_other; auto. intros ->. apply NDi. cbn [surv_of] in A. apply in_app_or in A.
        destruct A as [A|A]; [left|right]; [exact (kssurv_incl h ats i A)|exact (kssurv_incl h ks i A)].
      + rewrite hmod_other; auto.
    - rewrite hmod_same, H2i. reflexivity.
    - nproj. auto.
  Qed.
End Body.

Lemma dead_of_T : forall h i ats ks, dead_of h (T i ats ks) = i :: flat_map (kdead h) (ats ++ ks).
Proof. intros. simpl. rewrite flat_map_app. reflexivity. Qed.

(** The destructor on a node hanging on its parent (which has let go of it). *)
Lemma destroy_ok : forall f t s d nd, length (nodes t) <= f -> repr (s_heap s) t -> NoDup (nodes t) ->
  s_heap s d = Some nd -> ~ In d (nodes t) -> good (s_heap s) d (nodes t) ->
  exists h', destroy f (root t) s = Ok tt (withh s h') /\
    torn nobody (s_heap s) h' d nd (dead_of (s_heap s) t) (surv_of (s_heap s) t).
Proof.
  induction f; intros t s d nd SZ R ND Hd NI G. { destruct t; simpl in SZ; lia. }
  destruct t as [i ats ks]. simpl root. destruct (repr_live _ _ R _ (root_in_nodes _)) as (n & Hi). simpl in Hi.
  destruct (G i n) as (OW & PE & TD & TE); auto. { left; auto. }
  destruct (core_ok f IHf i ats ks s d nd n) as (h1 & n1 & E & TO & H1 & X1 & X2 & X3); auto.
  { eapply good_incl; eauto. rewrite flat_map_app. intros z I. right. auto. }
  rewrite E. unfold rest. rewrite bind_assoc. step (load_ok (withh s h1) i n1 H1). rewrite X2, PE. rewrite bind_ret.
  rewrite (free_ok (withh s h1) i n1 H1). exists (hupd h1 i None). split; [reflexivity|].
  rewrite dead_of_T. destruct TO as [T1 T2 T3 T4].
  assert (NS : forall j, In j (surv_of (s_heap s) (T i ats ks)) -> j <> i).
  { intros j A ->. exact (surv_dead_disj _ (T i ats ks) ND i (or_introl eq_refl) A). }
  assert (ID : i <> d) by (intros ->; apply NI; left; auto).
  assert (HU : forall j, j <> i -> hupd h1 i None j = h1 j).
  { intros j J. unfold hupd. apply Nat.eqb_neq in J. rewrite J. auto. }
  constructor.
  - intros j [<-|I]. { unfold hupd. rewrite Nat.eqb_refl. auto. }
    unfold hupd. destruct (Nat.eqb j i); auto.
  - intros j A B C _. simpl in A. rewrite HU by (intros ->; tauto). apply T2; auto.
  - intros j m A B. rewrite HU by (apply NS; auto). apply T3; auto.
  - rewrite HU by auto. auto.
Qed.
