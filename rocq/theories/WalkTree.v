(** The tree walker and textContent. *)
From Coq Require Import List Arith NArith Bool Lia ZifyBool ZifyNat ZifyN.
From Verif Require Import Base HeapModel HeapSpec HeapInv HeapExec HeapTree HeapInsert HeapCreate HistModel TreeSpec
  WalkModel WalkSpec WalkProofs WalkLists.
Import ListNotations.
Local Open Scope dom_scope.

Section Walk.
  Variable s : st.
  Hypothesis L : linked s.
  Let h := s_heap s.
  Variables (m : mask) (cb : callback) (top : id).
  Hypothesis MASK : m_enter m = true \/ m_leave m = false \/ forall tr, cb tr <> SKIP.

  (** The command carried along is only looked at before it is overwritten when it is CONTINUE. *)
  Definition carried (c : cmd) : Prop := c <> ABORT /\ (m_enter m = true \/ c = CONTINUE).

  Definition enter_at (f : nat) (x : id) (c : cmd) (tr : list call) : M st (list call) :=
    assert_ (negb (Nat.eqb x top)) ;;;
    let '(c', tr') := walk_cb m cb ENTER x c tr in walk_loop f m cb top x c' tr'.
  Definition leave_then (f : nat) (node : option id) (c : cmd) (tr : list call) : M st (list call) :=
    r <- with_fuel (fun g => walk_leave g m cb top node c tr) ;;
    match r with
    | Aborted tr' => ret tr'
    | AtRoot tr' => ret tr'
    | AtNext None _ _ => stuck AssertFail
    | AtNext (Some x) c' tr' => enter_at f x c' tr'
    end.

  Lemma walk_loop_eq : forall f node n c tr, h node = Some n -> c <> ABORT ->
    walk_loop (S f) m cb top node c tr s =
    match match c with SKIP => None | _ => n_first n end with
    | Some x => enter_at f x c tr s
    | None => leave_then f (Some node) c tr s
    end.
  Proof.
    intros f node n c tr H NA. cbn [walk_loop]. destruct c; [| |congruence];
      rewrite (bind_ok _ _ _ _ _ _ _ _ (load_ok _ _ _ H)); [destruct (n_first n)|]; reflexivity.
  Qed.

  (** The climb does not depend on its fuel. *)
  Lemma walk_leave_fuel : forall o l, achain h o l -> forall c tr g g', length l + 1 < g -> length l + 1 < g' ->
    walk_leave g m cb top o c tr s = walk_leave g' m cb top o c tr s.
  Proof.
    intros o l A. induction A as [|i n l H A IH]; intros c tr g g' G G'.
    - destruct g, g'; try lia. reflexivity.
    - destruct g, g'; try lia. cbn [walk_leave]. destruct (oid_eqb (Some i) (Some top)); [reflexivity|].
      rewrite !(bind_ok _ _ _ _ _ _ _ _ (deref_ok i s)). destruct (walk_cb m cb LEAVE i c tr) as [c' tr'].
      simpl in G, G'.
      assert (Q : walk_leave g m cb top (n_parent n) c' tr' s = walk_leave g' m cb top (n_parent n) c' tr' s) by (apply IH; lia).
      assert (Q0 : walk_leave g m cb top None c' tr' s = walk_leave g' m cb top None c' tr' s).
      { destruct g, g'; try lia. reflexivity. }
      destruct c'; auto; rewrite !(bind_ok _ _ _ _ _ _ _ _ (load_ok _ _ _ H)); destruct (ntype_eqb (n_type n) ATTRIBUTE); auto;
        destruct (n_next n); auto.
  Qed.

  (** Leaving a node, its LEAVE call included. *)
  Lemma leave_step : forall f i n p c tr, h i = Some n -> i <> top -> n_type n <> ATTRIBUTE -> n_parent n = Some p ->
    live h p ->
    let '(c', tr') := walk_cb m cb LEAVE i c tr in
    leave_then f (Some i) c tr s =
    match c' with
    | ABORT => Ok tr' s
    | _ => match n_next n with
           | Some x => enter_at f x c' tr' s
           | None => leave_then f (Some p) c' tr' s
           end
    end.
  Proof.
    intros f i n p c tr H NT NA P LP. unfold leave_then, with_fuel.
    destruct (walk_cb m cb LEAVE i c tr) as [c' tr'] eqn:E.
    assert (A : exists l, achain h (Some p) l /\ length l <= s_nxt s).
    { destruct (rooted_achain _ _ (linked_rooted _ L _ LP)) as [l A]. exists l. split; auto. eapply chain_len; eauto. }
    destruct A as (l & A & B).
    assert (F : fuel_of s = S (2 * s_nxt s + 7)) by (unfold fuel_of; lia).
    assert (Q : walk_leave (fuel_of s) m cb top (Some i) c tr s =
      match c' with
      | ABORT => Ok (Aborted tr') s
      | _ => match n_next n with Some x => Ok (AtNext (Some x) c' tr') s
             | None => walk_leave (fuel_of s) m cb top (Some p) c' tr' s end
      end).
    { rewrite F at 1. cbn [walk_leave]. rewrite oid_eqb_some. destruct (Nat.eqb_spec i top); [congruence|].
      rewrite (bind_ok _ _ _ _ _ _ _ _ (deref_ok i s)). rewrite E.
      assert (NB : ntype_eqb (n_type n) ATTRIBUTE = false) by (apply ntype_eqb_neq; auto).
      destruct c'; auto; rewrite (bind_ok _ _ _ _ _ _ _ _ (load_ok _ _ _ H)); rewrite NB, P;
        (destruct (n_next n); [reflexivity|]; apply (walk_leave_fuel _ _ A); unfold fuel_of; lia). }
    unfold bind. rewrite Q. destruct c'; [| |reflexivity]; destruct (n_next n); reflexivity.
  Qed.

  Lemma leave_top : forall f c tr, leave_then f (Some top) c tr s = Ok tr s.
  Proof.
    intros f c tr. unfold leave_then, with_fuel, fuel_of, bind. replace (2 * s_nxt s + 8) with (S (2 * s_nxt s + 7)) by lia.
    cbn [walk_leave]. rewrite oid_eqb_refl. reflexivity.
  Qed.

  (** What a visit of the inside of a node comes to. *)
  Definition body (ks : list rose) (c : cmd) (tr tr' : list call) (b : bool) : Prop :=
    match c with
    | CONTINUE => visits h m cb (map root ks) tr tr' b
    | _ => tr' = tr /\ b = false
    end.
  Definition inside (f : nat) (t : rose) (ks : list rose) (c : cmd) (tr : list call) : Prop :=
    (exists tr', body ks c tr tr' true /\ walk_loop f m cb top (root t) c tr s = Ok tr' s) \/
    (exists tr' c' f', body ks c tr tr' false /\ carried c' /\ f <= f' + length (pre t) /\
       walk_loop f m cb top (root t) c tr s = leave_then f' (Some (root t)) c' tr' s).
  Definition good (t : rose) : Prop := forall f c tr, WalkProofs.tr h t -> ~ In top (pre t) -> (exists n, h (root t) = Some n /\ n_type n <> ATTRIBUTE) ->
    carried c -> length (pre t) <= f -> inside f t (match t with T _ _ ks => ks end) c tr.

  Lemma enter_asked : forall i c tr c' tr', carried c -> walk_cb m cb ENTER i c tr = (c', tr') -> asked m cb ENTER i tr tr' c' /\
    (c' = ABORT \/ carried c').
  Proof.
    intros i c tr c' tr' [C1 C2] E. unfold walk_cb in E. cbn [enabled] in E. destruct (m_enter m) eqn:ME; inversion E; subst.
    - split; [constructor; auto|]. unfold carried. rewrite ME. destruct (cb (tr ++ [(ENTER, i)])); [right|right|left]; auto; split; auto; discriminate.
    - destruct C2 as [C2|C2]; [discriminate|]. subst. split; [constructor; auto|]. right. split; [discriminate|auto].
  Qed.

  Lemma leave_asked : forall i c tr c' tr', carried c -> walk_cb m cb LEAVE i c tr = (c', tr') ->
    exists a, asked m cb LEAVE i tr tr' a /\ ((a = ABORT /\ c' = ABORT) \/ (a <> ABORT /\ carried c')).
  Proof.
    intros i c tr c' tr' [C1 C2] E. unfold walk_cb in E. cbn [enabled] in E. destruct (m_leave m) eqn:ML; inversion E; subst.
    - exists (cb (tr ++ [(LEAVE, i)])). split; [constructor; auto|].
      destruct (cb (tr ++ [(LEAVE, i)])) eqn:Q; [right|right|left]; auto; (split; [discriminate|]); split; try discriminate; auto.
      destruct MASK as [MK|[MK|MK]]; auto; [congruence|]. destruct (MK _ Q).
    - exists CONTINUE. split; [constructor; auto|]. right. split; [discriminate|]. split; auto.
  Qed.

  Lemma not_abort : forall a, a <> ABORT -> match a with ABORT => true | _ => false end = false.
  Proof. destruct a; auto; congruence. Qed.

  (** Siblings from the first to be entered on. *)
  Lemma good_forest : forall ks, Forall good ks -> ks <> [] -> forall p f c tr, Forall (WalkProofs.tr h) ks -> chain h p (map root ks) -> live h p ->
    ~ In top (flat_map pre ks) -> carried c -> length (flat_map pre ks) <= f ->
    (exists tr', visits h m cb (map root ks) tr tr' true /\
       match map root ks with x :: _ => enter_at f x c tr s | [] => Ok tr s end = Ok tr' s) \/
    (exists tr' c' f', visits h m cb (map root ks) tr tr' false /\ carried c' /\ f <= f' + length (flat_map pre ks) /\
       match map root ks with x :: _ => enter_at f x c tr s | [] => Ok tr s end = leave_then f' (Some p) c' tr' s).
  Proof.
    induction ks as [|t ks]; intros FG NE p f c tr FT C LP NT CA LF; [congruence|].
    inversion FG as [|t0 k0 G FG']; subst. inversion FT as [|t0 k0 R FT']; subst. cbn [map chain] in C. destruct C as [(n & A1 & A2 & A3 & A4) C].
    cbn [flat_map map] in *. rewrite app_length in LF.
    assert (NT1 : ~ In top (pre t)) by (intros I; apply NT; apply in_or_app; auto).
    assert (NT2 : ~ In top (flat_map pre ks)) by (intros I; apply NT; apply in_or_app; auto).
    assert (RT : root t <> top) by (intros Q; apply NT1; rewrite <- Q; apply root_in_pre).
    unfold enter_at at 1 2. destruct (Nat.eqb_spec (root t) top) as [Q|_]; [congruence|]. cbn [negb].
    unfold bind at 1 2. unfold assert_. cbn.
    destruct (walk_cb m cb ENTER (root t) c tr) as [c1 tr1] eqn:E1.
    destruct (enter_asked _ _ _ _ _ CA E1) as [AK [->|CA1]].
    { left. exists tr1. split; [|destruct f; reflexivity]. apply vs_stop. apply v_abort. auto. }
    destruct t as [i ats kt]. cbn [root] in *. destruct (tr_inv _ _ _ _ R) as (n' & B1 & B2 & B3 & B4 & B5 & B6).
    assert (n' = n) by congruence; subst n'.
    assert (CHI : children h i (map root kt)) by (eapply tr_children; eauto).
    destruct (G f c1 tr1 R NT1) as [(tr2 & BD & WL)|(tr2 & c2 & f2 & BD & CA2 & F2 & WL)]; auto; [exists n; auto|lia| |].
    - left. exists tr2. cbn [root] in WL. split; [|exact WL]. apply vs_stop. unfold body in BD. destruct c1.
      + eapply v_inside; eauto.
      + destruct BD; discriminate.
      + destruct BD; discriminate.
    - cbn [root] in WL. rewrite WL. pose proof (leave_step f2 i n p c2 tr2 A1 RT A2 A3 LP) as LS.
      destruct (walk_cb m cb LEAVE i c2 tr2) as [c3 tr3] eqn:E3.
      destruct (leave_asked _ _ _ _ _ CA2 E3) as (a & AK3 & [[-> ->]|[NA CA3]]).
      + left. exists tr3. split; [|exact LS]. apply vs_stop. unfold body in BD. destruct c1.
        * change true with (match ABORT with ABORT => true | _ => false end). eapply v_whole; eauto.
        * destruct BD as [-> _]. change true with (match ABORT with ABORT => true | _ => false end). eapply v_skip; eauto.
        * destruct CA1; congruence.
      + assert (VI : visit h m cb i tr tr3 false).
        { rewrite <- (not_abort _ NA). unfold body in BD. destruct c1.
          - eapply v_whole; eauto. - destruct BD as [-> _]. eapply v_skip; eauto. - destruct CA1; congruence. }
        destruct CA3 as [NA3 CA3]. rewrite A4 in LS.
        assert (LS' : leave_then f2 (Some i) c2 tr2 s = match hd_error (map root ks) with Some x => enter_at f2 x c3 tr3 s | None => leave_then f2 (Some p) c3 tr3 s end).
        { rewrite LS. destruct c3; auto; congruence. }
        rewrite LS'. destruct ks as [|t2 ks].
        * right. exists tr3, c3, f2. split; [|split; [split; auto|split]].
          -- eapply vs_cons; eauto. constructor.
          -- cbn [flat_map]. rewrite app_nil_r. exact F2.
          -- reflexivity.
        * cbn [map hd_error]. destruct (IHks FG' ltac:(discriminate) p f2 c3 tr3 FT' C LP NT2) as [(tr4 & V & W)|(tr4 & c4 & f4 & V & CA4 & F4 & W)].
          -- split; auto.
          -- lia.
          -- left. exists tr4. split; [eapply vs_cons; eauto|exact W].
          -- right. exists tr4, c4, f4. split; [eapply vs_cons; eauto|]. split; auto. split; [|exact W]. rewrite app_length. lia.
  Qed.

  Lemma good_all : forall t, good t.
  Proof.
    intros t. induction t using rose_ind2. intros f c tr R NT (n & N1 & N2) CA LF. cbn [root] in N1.
    destruct (tr_inv _ _ _ _ R) as (n' & B1 & B2 & B3 & B4 & B5 & B6). assert (n' = n) by congruence; subst n'.
    cbn [pre length] in LF. destruct f as [|f]; [lia|]. unfold inside. cbn [root]. pose proof (walk_loop_eq f i n c tr N1 (proj1 CA)) as E.
    destruct c; [| |destruct CA; congruence].
    - rewrite E. rewrite B2. destruct ks as [|t ks].
      + right. exists tr, CONTINUE, f. split; [constructor|]. split; auto. split; [simpl; lia|reflexivity].
      + cbn [map hd_error]. cbn [pre] in NT.
        destruct (good_forest (t :: ks) H0 ltac:(discriminate) i f CONTINUE tr B6 B4) as [(tr2 & V & W)|(tr2 & c2 & f2 & V & CA2 & F2 & W)]; auto.
        * exists n; auto. * intros I; apply NT; right; auto. * lia.
        * left. exists tr2. split; auto.
        * right. exists tr2, c2, f2. split; auto. split; auto. split; auto. cbn [pre length]. lia.
    - rewrite E. right. exists tr, SKIP, f. split; [simpl; auto|]. split; auto. split; [simpl; lia|reflexivity].
  Qed.

  Theorem treewalk_ok : forall l, children h top l ->
    exists tr b, treewalk m cb top s = Ok tr s /\ visits h m cb l [] tr b.
  Proof.
    intros l C. assert (LT : live h top) by (destruct C as (n & A & _); exists n; auto).
    destruct (linked_tree _ L top LT) as ([i ats ks] & R & E). simpl in E. subst i.
    pose proof (tr_children _ _ _ _ R) as C'. rewrite (children_det _ _ _ _ C C').
    destruct (tr_inv _ _ _ _ R) as (n & B1 & B2 & B3 & B4 & B5 & B6).
    pose proof (tr_size _ L _ R) as SZ. pose proof (tr_nodup _ L _ R) as ND. cbn [pre length] in SZ, ND. inversion ND as [|x0 l0 NI ND']; subst.
    unfold treewalk, with_fuel. assert (F : fuel_of s = S (2 * s_nxt s + 7)) by (unfold fuel_of; lia). rewrite F.
    rewrite (walk_loop_eq _ _ _ _ _ B1) by discriminate. rewrite B2. destruct ks as [|t ks].
    - cbn [map hd_error]. exists [], false. split; [apply leave_top|constructor].
    - cbn [map hd_error].
      destruct (good_forest (t :: ks)) with (p := top) (f := 2 * s_nxt s + 7) (c := CONTINUE) (tr := @nil call)
        as [(tr2 & V & W)|(tr2 & c2 & f2 & V & CA2 & F2 & W)]; auto.
      + rewrite Forall_forall. intros; apply good_all.
      + discriminate.
      + split; [discriminate|auto].
      + lia.
      + exists tr2, true. split; auto.
      + exists tr2, false. split; auto. cbn [map] in W. rewrite W. apply leave_top.
  Qed.
End Walk.

(** Visits are determined. *)
Lemma asked_det : forall m cb g i tr a c, asked m cb g i tr a c -> forall a' c', asked m cb g i tr a' c' -> a = a' /\ c = c'.
Proof. intros m cb g i tr a c A a' c' A'. inversion A; inversion A'; subst; auto; congruence. Qed.
Scheme visit_ind2 := Minimality for visit Sort Prop with visits_ind2 := Minimality for visits Sort Prop.
Combined Scheme visit_both from visit_ind2, visits_ind2.
Lemma visits_det : forall h m cb,
  (forall i tr tr1 b, visit h m cb i tr tr1 b -> forall tr2 b2, visit h m cb i tr tr2 b2 -> tr1 = tr2 /\ b = b2) /\
  (forall l tr tr1 b, visits h m cb l tr tr1 b -> forall tr2 b2, visits h m cb l tr tr2 b2 -> tr1 = tr2 /\ b = b2).
Proof.
  intros h m cb.
  pose proof (visit_both h m cb
    (fun i tr tr1 b => forall tr2 b2, visit h m cb i tr tr2 b2 -> tr1 = tr2 /\ b = b2)
    (fun l tr tr1 b => forall tr2 b2, visits h m cb l tr tr2 b2 -> tr1 = tr2 /\ b = b2)) as K. cbv beta in K. apply K; clear K.
  - intros i tr tr' A tr2 b2 V. inversion V as [i' t1 t2 A'|i' t1 t2 t3 c A' A2|i' t1 t2 t3 l A' C V'|i' t1 t2 t3 t4 l c A' C V' A2]; subst;
      destruct (asked_det _ _ _ _ _ _ _ A _ _ A') as [-> Q]; try discriminate; auto.
  - intros i tr tr1 tr2 c A B tr' b V. inversion V as [i' t1 t2 A'|i' t1 t2 t3 c' A' A2|i' t1 t2 t3 l A' C V'|i' t1 t2 t3 t4 l c' A' C V' A2]; subst;
      destruct (asked_det _ _ _ _ _ _ _ A _ _ A') as [-> Q]; try discriminate.
    destruct (asked_det _ _ _ _ _ _ _ B _ _ A2) as [-> ->]. auto.
  - intros i tr tr1 tr2 l A C _ IH tr' b V. inversion V as [i' t1 t2 A'|i' t1 t2 t3 c' A' A2|i' t1 t2 t3 l' A' C' V'|i' t1 t2 t3 t4 l' c' A' C' V' A2]; subst;
      destruct (asked_det _ _ _ _ _ _ _ A _ _ A') as [-> Q]; try discriminate; rewrite (children_det _ _ _ _ C' C) in V';
      destruct (IH _ _ V') as [-> Q2]; auto; discriminate.
  - intros i tr tr1 tr2 tr3 l c A C _ IH B tr' b V. inversion V as [i' t1 t2 A'|i' t1 t2 t3 c' A' A2|i' t1 t2 t3 l' A' C' V'|i' t1 t2 t3 t4 l' c' A' C' V' A2]; subst;
      destruct (asked_det _ _ _ _ _ _ _ A _ _ A') as [-> Q]; try discriminate; rewrite (children_det _ _ _ _ C' C) in V';
      destruct (IH _ _ V') as [-> Q2]; try discriminate.
    destruct (asked_det _ _ _ _ _ _ _ B _ _ A2) as [-> ->]. auto.
  - intros tr tr2 b2 V. inversion V; auto.
  - intros i l tr tr' _ IH tr2 b2 V. inversion V as [|i' l' t1 t2 V'|i' l' t1 t2 t3 b V1 V2]; subst.
    + destruct (IH _ _ V') as [-> _]. auto.
    + destruct (IH _ _ V1) as [_ Q]. discriminate.
  - intros i l tr tr1 tr2 b _ IH _ IH2 tr' b2 V. inversion V as [|i' l' t1 t2 V'|i' l' t1 t2 t3 b' V1 V2]; subst.
    + destruct (IH _ _ V') as [_ Q]. discriminate.
    + destruct (IH _ _ V1) as [-> _]. auto.
Qed.
