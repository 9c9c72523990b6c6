(** Proofs for the registry of node lists. *)
From Coq Require Import List Arith NArith Bool Lia ZifyBool ZifyNat ZifyN.
From Verif Require Import Base StringModel StringSpec StringProofs RegModel RegSpec.
Import ListNotations.
Local Open Scope dom_scope.

Lemma rb : forall S A B (m : M S A) (f : A -> M S B) s a s', m s = Ok a s' -> bind m f s = f a s'.
Proof. intros. unfold bind. rewrite H. auto. Qed.
Ltac stp H := rewrite (rb _ _ _ _ _ _ _ _ H).

Lemma at_same : forall A (m : nat -> A) i v, at_ m i v i = v.
Proof. intros. unfold at_. rewrite Nat.eqb_refl. auto. Qed.
Lemma at_other : forall A (m : nat -> A) i v j, i <> j -> at_ m i v j = m j.
Proof. intros. unfold at_. destruct (Nat.eqb_spec i j); congruence. Qed.

(** ** Matching *)
Lemma or_empty_str : forall v, d_bytes (or_empty (str v)) = text_of v.
Proof. intros [b|]; reflexivity. Qed.
Lemma same_string_iff : forall c a b, same_string c a b = true <-> alike c a b.
Proof.
  intros c a b. unfold same_string, alike. destruct c.
  - rewrite string_caseless_iff. rewrite !or_empty_str. tauto.
  - rewrite string_isequal_iff. rewrite !or_empty_str. tauto.
Qed.
Lemma alike_sym : forall c a b, alike c a b -> alike c b a.
Proof.
  intros c a b. rewrite <- !same_string_iff. unfold same_string. destruct c.
  - apply caseless_sym.
  - rewrite !string_isequal_iff. congruence.
Qed.
Lemma same_request_sym : forall p q, same_request p q -> same_request q p.
Proof. intros p q H. destruct H; constructor; apply alike_sym; auto. Qed.
Lemma match_iff : forall x root q, nodelist_match x root q = true <-> nl_root x = root /\ same_request (nl_req x) q.
Proof.
  intros x root q. unfold nodelist_match. destruct (Nat.eqb_spec (nl_root x) root) as [E|E]; cbn [negb].
  2:{ split; [discriminate|]. intros []; congruence. }
  destruct (nl_req x) as [|c a|c n a], q as [|c' b|c' m b]; cbn [andb];
    try (split; [discriminate|intros [_ H]; inversion H]).
  - split; auto. intros _. split; auto. constructor.
  - rewrite andb_true_iff, same_string_iff. split.
    + intros [H1 H2]. apply eqb_prop in H1. subst c'. split; auto. constructor; auto.
    + intros [_ H]. inversion H; subst. split; [apply eqb_reflx|auto].
  - rewrite !andb_true_iff, !same_string_iff. split.
    + intros [H1 [H2 H3]]. apply eqb_prop in H1. subst c'. split; auto. constructor; auto.
    + intros [_ H]. inversion H; subst. split; [apply eqb_reflx|auto].
Qed.

(** ** Segments of the registry: entries and the lists they hold *)
Fixpoint seg (E : nat -> option entry) (p h : option nat) (l : list (nat * nat)) (m : option nat) : Prop :=
  match l with
  | [] => h = m
  | (e, x) :: l' => h = Some e /\ exists n, E e = Some (mkEntry x p n) /\ seg E (Some e) n l' m
  end.
Definition lastp (p : option nat) (l : list (nat * nat)) : option nat := List.last (map (fun c => Some (fst c)) l) p.

Lemma last_shift : forall A (l : list A) a d, List.last (a :: l) d = List.last l a.
Proof.
  intros A l. induction l as [|b l IH]; intros a d; auto.
  change (List.last (a :: b :: l) d) with (List.last (b :: l) d). rewrite (IH b d). rewrite (IH b a). auto.
Qed.
Lemma lastp_cons : forall p e x l, lastp p ((e, x) :: l) = lastp (Some e) l.
Proof.
  intros p e x l. unfold lastp. cbn [map fst]. apply last_shift.
Qed.
Lemma seg_app : forall E l1 l2 p h m, seg E p h (l1 ++ l2) m <-> exists k, seg E p h l1 k /\ seg E (lastp p l1) k l2 m.
Proof.
  intros E l1 l2. induction l1 as [|[e x] l1 IH]; intros p h m.
  - cbn. split; [intros H; exists h; auto|]. intros (k & -> & H). auto.
  - cbn [app seg]. split.
    + intros (-> & n & He & H). apply IH in H. destruct H as (k & H1 & H2). exists k. rewrite lastp_cons.
      split; auto. split; auto. exists n. auto.
    + intros (k & (-> & n & He & H1) & H2). rewrite lastp_cons in H2. split; auto. exists n. split; auto. apply IH. exists k. auto.
Qed.
Lemma seg_frame : forall E E' l p h m, (forall e, In e (map fst l) -> E' e = E e) -> seg E p h l m -> seg E' p h l m.
Proof.
  intros E E' l. induction l as [|[e x] l IH]; intros p h m F H; auto.
  cbn [seg] in *. destruct H as (-> & n & He & H). split; auto. exists n. split.
  - rewrite F; auto. left. auto.
  - apply IH; auto. intros f Hf. apply F. right. auto.
Qed.
Lemma snoc : forall A (l : list A), l = [] \/ exists l' a, l = l' ++ [a].
Proof. intros A l. induction l using rev_ind; eauto. Qed.
Lemma seg_remembers : forall s l p h, seg (r_ents s) p h l None -> remembers s h (map snd l).
Proof.
  intros s l. induction l as [|[e x] l IH]; intros p h H; cbn [seg map snd] in *.
  - subst. constructor.
  - destruct H as (-> & n & He & H). exact (rm_next s e (mkEntry x p n) (map snd l) He (IH _ _ H)).
Qed.

Lemma bounded_length : forall (l : list nat) n, NoDup l -> (forall x, In x l -> x < n) -> length l <= n.
Proof.
  intros l n N H. rewrite <- (seq_length n 0). apply NoDup_incl_length; auto.
  intros x Hx. apply in_seq. specialize (H x Hx). lia.
Qed.

Lemma search_ok : forall s root q es f p h, seg (r_ents s) p h es None -> length es <= f ->
  (forall e x, In (e, x) es -> exists y, r_lists s x = Some y) ->
  (exists e x y, In (e, x) es /\ r_lists s x = Some y /\ nodelist_match y root q = true /\ search f h root q s = Ok (Some e) s) \/
  ((forall e x y, In (e, x) es -> r_lists s x = Some y -> nodelist_match y root q = false) /\ search f h root q s = Ok None s).
Proof.
  intros s root q es. induction es as [|[e x] es IH]; intros f p h Sg L D; cbn [seg length] in *.
  - subst h. right. split; [intros ? ? ? []|]. destruct f; reflexivity.
  - destruct Sg as (-> & n & He & Sg). destruct f as [|f]; [lia|].
    destruct (D e x) as [y Hy]; [left; auto|].
    destruct (nodelist_match y root q) eqn:Q.
    + left. exists e, x, y. split; [left; auto|]. split; auto. split; auto.
      cbn [search]. unfold bind, eload. rewrite He. cbn [en_list]. unfold lload. rewrite Hy, Q. reflexivity.
    + assert (U : search (S f) (Some e) root q s = search f n root q s).
      { cbn [search]. unfold bind, eload. rewrite He. cbn [en_list en_next]. unfold lload. rewrite Hy, Q. reflexivity. }
      rewrite U. destruct (IH f (Some e) n Sg ltac:(lia)) as [(e' & x' & y' & I & H)|[H1 H2]].
      * intros e' x' I. apply (D e' x'). right. auto.
      * left. exists e', x', y'. split; [right|]; auto.
      * right. split; auto. intros e' x' y' [I|I] Hy'.
        -- inversion I; subst. congruence.
        -- apply (H1 _ _ _ I Hy').
Qed.
Lemma find_entry_ok : forall s l es f p h, seg (r_ents s) p h es None -> length es <= f -> In l (map snd es) ->
  exists l1 e l2, es = l1 ++ (e, l) :: l2 /\ find_entry f h l s = Ok (Some e) s.
Proof.
  intros s l es. induction es as [|[e x] es IH]; intros f p h Sg L I; cbn [seg length map snd] in *; [destruct I|].
  destruct Sg as (-> & n & He & Sg). destruct f as [|f]; [lia|].
  destruct (Nat.eqb_spec x l) as [->|X].
  - exists [], e, es. split; auto. cbn [find_entry]. unfold bind, eload. rewrite He. cbn [en_list]. rewrite Nat.eqb_refl. reflexivity.
  - destruct I as [I|I]; [congruence|]. destruct (IH f (Some e) n Sg ltac:(lia) I) as (l1 & e' & l2 & -> & H).
    exists ((e, x) :: l1), e', l2. split; auto. cbn [find_entry]. unfold bind, eload. rewrite He. cbn [en_list en_next].
    destruct (Nat.eqb_spec x l); [congruence|]. exact H.
Qed.

Lemma remove_ok : forall s es l, r_alive s = true -> seg (r_ents s) None (r_head s) es None -> NoDup (map fst es) -> NoDup (map snd es) ->
  length es <= r_ne s -> In l (map snd es) ->
  exists l1 e l2 E' h', es = l1 ++ (e, l) :: l2 /\
    remove_nodelist l s = Ok tt (mkReg (r_lists s) E' h' (r_nl s) (r_ne s) (r_ref s) true) /\ seg E' None h' (l1 ++ l2) None.
Proof.
  intros s es l A Sg N N2 L I.
  destruct (find_entry_ok s l es (S (r_ne s)) None (r_head s) Sg ltac:(lia) I) as (l1 & e & l2 & -> & F).
  apply seg_app in Sg. destruct Sg as (k & S1 & S2). cbn [seg] in S2. destruct S2 as (-> & n & He & S2).
  rewrite map_app in N. cbn [map fst] in N.
  pose proof (NoDup_remove _ _ _ N) as [N' NI]. rewrite in_app_iff in NI.
  exists l1, e, l2.
  assert (H0 : remove_nodelist l s = (x <- eload e ;;
      (match en_prev x with
       | Some p => y <- eload p ;; eput p (Some (mkEntry (en_list y) (en_prev y) (en_next x)))
       | None => set_head (en_next x)
       end) ;;;
      (match en_next x with
       | Some n => y <- eload n ;; eput n (Some (mkEntry (en_list y) (en_prev x) (en_next y)))
       | None => ret tt
       end) ;;;
      eput e None) s).
  { unfold remove_nodelist. unfold bind at 1. unfold head at 1. rewrite A. unfold bind at 1. rewrite F. reflexivity. }
  rewrite H0. unfold bind at 1, eload at 1. rewrite He. cbn [en_prev en_next en_list]. clear H0 F.
  (* the entry after: what its update does, over a state with entries E1 *)
  assert (Two : forall s1, r_alive s1 = true -> (forall f, In f (map fst l2) -> r_ents s1 f = r_ents s f) ->
    exists E2, (match n with
       | Some n => y <- eload n ;; eput n (Some (mkEntry (en_list y) (lastp None l1) (en_next y)))
       | None => ret tt
       end ;;; eput e None) s1 = Ok tt (mkReg (r_lists s1) (at_ E2 e None) (r_head s1) (r_nl s1) (r_ne s1) (r_ref s1) (r_alive s1)) /\
      seg E2 (lastp None l1) n l2 None /\ (forall f, ~ In f (map fst l2) -> E2 f = r_ents s1 f)).
  { intros s1 A1 Fr. destruct l2 as [|[f z] l2']; cbn [seg] in S2.
    - subst n. exists (r_ents s1). split; [reflexivity|]. split; [reflexivity|]. auto.
    - destruct S2 as (-> & n2 & Hf & S2). assert (Hf1 : r_ents s1 f = Some (mkEntry z (Some e) n2)).
      { rewrite Fr; auto. left. auto. }
      exists (at_ (r_ents s1) f (Some (mkEntry z (lastp None l1) n2))). split.
      + unfold bind, eload. rewrite Hf1. reflexivity.
      + split.
        * cbn [seg]. split; auto. exists n2. rewrite at_same. split; auto.
          assert (N3 : NoDup (f :: map fst l2')). { clear - N'. induction (map fst l1) as [|a r IH]; auto. apply NoDup_cons_iff in N'. apply IH, N'. }
          apply NoDup_cons_iff in N3. destruct N3 as [N3 _].
          refine (seg_frame (r_ents s) _ l2' _ _ _ _ S2). intros g G. rewrite at_other; [|intros ->; auto].
          apply Fr. right. auto.
        * intros g G. rewrite at_other; auto. intros ->. apply G. left. auto. }
  destruct (snoc _ l1) as [->|(l1' & [p y] & ->)].
  - cbn [lastp map List.last seg app] in *.
    unfold bind at 1. unfold set_head at 1. rewrite A.
    destruct (Two (mkReg (r_lists s) (r_ents s) n (r_nl s) (r_ne s) (r_ref s) true)) as (E2 & R & Sg2 & Fr2); auto.
    rewrite R. cbn [r_lists r_ents r_head r_nl r_ne r_ref r_alive] in *. exists (at_ E2 e None), n.
    split; auto. split; auto. refine (seg_frame E2 _ l2 _ _ _ _ Sg2). intros f Hf. rewrite at_other; auto. intros ->. tauto.
  - apply seg_app in S1. destruct S1 as (k & S0 & S1). cbn [seg] in S1. destruct S1 as (-> & n1 & Hp & ->).
    assert (LP : lastp None (l1' ++ [(p, y)]) = Some p).
    { unfold lastp. rewrite map_app. cbn [map fst]. apply last_last. }
    rewrite LP in *. rewrite map_app in *. cbn [map fst] in *.
    assert (PN : ~ In p (map fst l2)).
    { intros G. rewrite <- app_assoc in N'. apply NoDup_remove in N'. destruct N' as [_ N']. apply N'. apply in_or_app. auto. }
    assert (PL : ~ In p (map fst l1')).
    { intros G. rewrite <- app_assoc in N'. apply NoDup_remove in N'. destruct N' as [_ N']. apply N'. apply in_or_app. auto. }
    assert (PE : p <> e). { intros ->. apply NI. left. apply in_or_app. right. left. auto. }
    unfold bind at 1. unfold bind at 1. unfold eload at 1. rewrite Hp. cbn [en_list en_prev en_next]. unfold eput at 1.
    destruct (Two (mkReg (r_lists s) (at_ (r_ents s) p (Some (mkEntry y (lastp None l1') n))) (r_head s) (r_nl s) (r_ne s) (r_ref s) (r_alive s))) as (E2 & R & Sg2 & Fr2); auto.
    { cbn [r_ents]. intros f Hf. rewrite at_other; auto. intros ->. auto. }
    rewrite R. cbn [r_lists r_ents r_head r_nl r_ne r_ref r_alive] in *. rewrite A. exists (at_ E2 e None), (r_head s).
    split; auto. split; auto. rewrite <- app_assoc. apply seg_app. exists (Some p). split.
    + refine (seg_frame (r_ents s) _ l1' _ _ _ _ S0). intros f Hf. rewrite at_other; [|intros ->; apply NI; left; apply in_or_app; auto].
      rewrite Fr2. * rewrite at_other; auto. intros ->. auto.
      * intros G. rewrite <- app_assoc in N'. cbn [app] in N'. 
        assert (D : forall f, In f (map fst l1') -> ~ In f (p :: map fst l2)).
        { clear - N'. intros f H1 H2. induction (map fst l1') as [|a r IH]; [auto|]. cbn [app] in N'. apply NoDup_cons_iff in N'. destruct N' as [X Y].
          destruct H1 as [->|H1]; [apply X; apply in_or_app; auto|auto]. }
        apply (D f Hf). right. auto.
    + cbn [app seg]. split; auto. exists n. split.
      * rewrite at_other; auto. rewrite Fr2; auto. rewrite at_same. auto.
      * refine (seg_frame E2 _ l2 _ _ _ _ Sg2). intros f Hf. rewrite at_other; auto. intros ->. tauto.
Qed.

(** ** The invariant *)
Fixpoint roots (n : nat) (hs : list held) : N :=
  match hs with [] => 0%N | h :: t => ((if Nat.eqb (h_root h) n then 1 else 0) + roots n t)%N end.
Record rgood (k : nat) (s : reg) (g : hands) (es : list (nat * nat)) : Prop := {
  rg_seg : seg (r_ents s) None (r_head s) es None;
  rg_snd : map snd es = map h_list (hd_lists g);
  rg_nodup_e : NoDup (map fst es);
  rg_lt_e : forall e, In e (map fst es) -> e < r_ne s;
  rg_nodup : NoDup (map h_list (hd_lists g));
  rg_lt : forall l, In l (map h_list (hd_lists g)) -> l < r_nl s;
  rg_obj : forall h, In h (hd_lists g) -> r_lists s (h_list h) = Some (mkNlist (h_root h) (h_req h) (h_count h));
  rg_none : forall l, ~ In l (map h_list (hd_lists g)) -> r_lists s l = None;
  rg_pos : forall h, In h (hd_lists g) -> (0 < h_count h <= N.of_nat k)%N;
  rg_name : forall h c, In h (hd_lists g) -> h_req h <> ByName c None;
  rg_uniq : forall h1 h2, In h1 (hd_lists g) -> In h2 (hd_lists g) -> h_root h1 = h_root h2 -> same_request (h_req h1) (h_req h2) -> h_list h1 = h_list h2;
  rg_ref : forall n, r_ref s n = (roots n (hd_lists g) + (if Nat.eqb n 0 then hd_doc g + N.of_nat (length (hd_lists g)) else 0))%N;
  rg_alive : r_alive s = negb (r_ref s 0 =? 0)%N;
  rg_doc : (hd_doc g <= N.of_nat (S k))%N;
  rg_len : length (hd_lists g) <= k }.

Lemma roots_app : forall n a b, roots n (a ++ b) = (roots n a + roots n b)%N.
Proof. intros n a b. induction a as [|h a IH]; cbn [roots app]; [reflexivity|]. rewrite IH. lia. Qed.
Lemma roots_le : forall n a, (roots n a <= N.of_nat (length a))%N.
Proof. intros n a. induction a as [|h a IH]; cbn [roots length]; [lia|]. destruct (Nat.eqb (h_root h) n); lia. Qed.
Lemma held_split : forall hs l, NoDup (map h_list hs) -> In l (map h_list hs) ->
  exists a h b, hs = a ++ h :: b /\ h_list h = l /\ ~ In l (map h_list a) /\ ~ In l (map h_list b).
Proof.
  intros hs l N I. apply in_map_iff in I. destruct I as (h & E & I). apply in_split in I. destruct I as (a & b & ->).
  exists a, h, b. split; auto. split; auto. rewrite map_app in N. cbn [map] in N. apply NoDup_remove_2 in N. rewrite E in N.
  rewrite in_app_iff in N. tauto.
Qed.
Lemma more_other : forall l hs, ~ In l (map h_list hs) -> more l hs = hs.
Proof.
  intros l hs H. unfold more. induction hs as [|h hs IH]; auto. cbn [map] in *. rewrite IH; [|intros I; apply H; right; auto].
  destruct (Nat.eqb_spec (h_list h) l); auto. exfalso. apply H. left. auto.
Qed.
Lemma more_app : forall l a b, more l (a ++ b) = more l a ++ more l b.
Proof. intros. apply map_app. Qed.
Lemma fewer_app : forall l a b, fewer l (a ++ b) = fewer l a ++ fewer l b.
Proof. intros. unfold fewer. rewrite map_app. apply filter_app. Qed.
Lemma fewer_other : forall l hs, ~ In l (map h_list hs) -> (forall h, In h hs -> (0 < h_count h)%N) -> fewer l hs = hs.
Proof.
  intros l hs H P. unfold fewer. induction hs as [|h hs IH]; auto. cbn [map filter] in *.
  destruct (Nat.eqb_spec (h_list h) l) as [E|E]; [exfalso; apply H; left; auto|].
  destruct (N.eqb_spec (h_count h) 0) as [Z|Z]; cbn [negb].
  - specialize (P h (or_introl eq_refl)). lia.
  - rewrite IH; [reflexivity|intros I; apply H; right; exact I|]. intros h' I. apply P. right. exact I.
Qed.
Lemma more_split : forall l a h b, h_list h = l -> ~ In l (map h_list a) -> ~ In l (map h_list b) ->
  more l (a ++ h :: b) = a ++ mkHeld l (h_root h) (h_req h) (h_count h + 1) :: b.
Proof.
  intros l a h b E A B. rewrite more_app. rewrite more_other; auto. f_equal. unfold more. cbn [map]. rewrite E, Nat.eqb_refl.
  f_equal. apply more_other; auto.
Qed.
Lemma fewer_split : forall l a h b, h_list h = l -> ~ In l (map h_list a) -> ~ In l (map h_list b) -> (forall h', In h' (a ++ h :: b) -> (0 < h_count h')%N) ->
  fewer l (a ++ h :: b) = if (h_count h - 1 =? 0)%N then a ++ b else a ++ mkHeld l (h_root h) (h_req h) (h_count h - 1) :: b.
Proof.
  intros l a h b E A B P. rewrite fewer_app. rewrite fewer_other; auto.
  2:{ intros h' I. apply P. apply in_or_app. auto. }
  assert (FB : fewer l b = b). { apply fewer_other; auto. intros h' I. apply P. apply in_or_app. right. right. auto. }
  unfold fewer at 1. cbn [map filter]. rewrite E, Nat.eqb_refl. cbn [h_count]. destruct (h_count h - 1 =? 0)%N; cbn [negb]; rewrite <- FB at 2; reflexivity.
Qed.


(** A changed count of one list. *)
Lemma recount : forall k s d a h b es c, rgood k s (mkHands d (a ++ h :: b)) es -> (0 < c <= N.of_nat (S k))%N ->
  rgood (S k) (mkReg (at_ (r_lists s) (h_list h) (Some (mkNlist (h_root h) (h_req h) c))) (r_ents s) (r_head s) (r_nl s) (r_ne s) (r_ref s) (r_alive s))
    (mkHands d (a ++ mkHeld (h_list h) (h_root h) (h_req h) c :: b)) es.
Proof.
  intros k s d a h b es c G C. set (h' := mkHeld (h_list h) (h_root h) (h_req h) c).
  assert (ML : map h_list (a ++ h' :: b) = map h_list (a ++ h :: b)) by (rewrite !map_app; reflexivity).
  assert (Rt : forall n, roots n (a ++ h' :: b) = roots n (a ++ h :: b)) by (intros; rewrite !roots_app; reflexivity).
  assert (Ln : length (a ++ h' :: b) = length (a ++ h :: b)) by (rewrite !app_length; reflexivity).
  destruct G as [g1 g2 g3 g4 g5 g6 g7 g8 g9 g10 g11 g12 g13 g14 g15]. cbn [hd_doc hd_lists] in *.
  assert (Old : forall x, In x (a ++ h' :: b) -> exists y, In y (a ++ h :: b) /\ h_list x = h_list y /\ h_root x = h_root y /\ h_req x = h_req y).
  { intros x I. apply in_app_or in I. destruct I as [I|[<-|I]].
    - exists x. split; [apply in_or_app; auto|auto].
    - exists h. split; [apply in_or_app; right; left; auto|auto].
    - exists x. split; [apply in_or_app; right; right; auto|auto]. }
  assert (ND : NoDup (map h_list a ++ h_list h :: map h_list b)) by (rewrite map_app in g5; exact g5).
  apply NoDup_remove_2 in ND. rewrite in_app_iff in ND.
  constructor; cbn [r_lists r_ents r_head r_nl r_ne r_ref r_alive hd_doc hd_lists]; auto.
  - congruence.
  - congruence.
  - rewrite ML. auto.
  - intros x I. apply in_app_or in I. destruct I as [I|[<-|I]].
    + rewrite at_other; [apply g7; apply in_or_app; auto|]. intros E. apply ND. left. rewrite E. apply in_map; auto.
    + cbn [h_list]. rewrite at_same. reflexivity.
    + rewrite at_other; [apply g7; apply in_or_app; right; right; auto|]. intros E. apply ND. right. rewrite E. apply in_map; auto.
  - intros l H. rewrite ML in H. rewrite at_other; auto. intros <-. apply H. rewrite map_app. apply in_or_app. right. left. auto.
  - intros x I. apply in_app_or in I. destruct I as [I|[<-|I]].
    + specialize (g9 x). assert (In x (a ++ h :: b)) by (apply in_or_app; auto). lia.
    + exact C.
    + specialize (g9 x). assert (In x (a ++ h :: b)) by (apply in_or_app; right; right; auto). lia.
  - intros x cc I. destruct (Old x I) as (y & I' & _ & _ & E). rewrite E. auto.
  - intros x1 x2 I1 I2. destruct (Old x1 I1) as (y1 & J1 & E1 & E2 & E3). destruct (Old x2 I2) as (y2 & J2 & F1 & F2 & F3).
    rewrite E1, E2, E3, F1, F2, F3. auto.
  - intros n. rewrite Rt, Ln. auto.
  - lia.
  - rewrite Ln. lia.
Qed.

Lemma u32_small : forall n, (n < 4294967296)%N -> u32 n = n.
Proof. intros. unfold u32, two32. apply N.mod_small. auto. Qed.
Lemma u32_dec : forall n, (0 < n <= 4294967296)%N -> u32 (n + 4294967295) = (n - 1)%N.
Proof. intros. unfold u32, two32. replace (n + 4294967295)%N with (n - 1 + 1 * 4294967296)%N by lia. rewrite N.mod_add by lia. apply N.mod_small. lia. Qed.

Lemma rgood_alive : forall k s g es, rgood k s g es -> (r_alive s = true <-> (0 < hd_doc g)%N \/ hd_lists g <> []).
Proof.
  intros k s g es G. rewrite (rg_alive _ _ _ _ G), (rg_ref _ _ _ _ G). cbn [Nat.eqb].
  destruct (hd_lists g) as [|h t]; cbn [length roots]; split; intros H.
  - left. lia.
  - destruct H; [lia|congruence].
  - right. discriminate.
  - lia.
Qed.
Lemma rgood_refs : forall k s g es n, rgood k s g es -> (r_ref s n <= 3 * N.of_nat k + 1)%N.
Proof.
  intros k s g es n G. rewrite (rg_ref _ _ _ _ G). pose proof (roots_le n (hd_lists g)). pose proof (rg_len _ _ _ _ G). pose proof (rg_doc _ _ _ _ G).
  destruct (Nat.eqb n 0); lia.
Qed.

(** ** Each call *)
Lemma ref_good : forall k s g es l, rgood k s g es -> brief k -> In l (map h_list (hd_lists g)) ->
  exists s', nodelist_ref l s = Ok tt s' /\ rgood (S k) s' (mkHands (hd_doc g) (more l (hd_lists g))) es.
Proof.
  intros k s [d hs] es l G B I. cbn [hd_doc hd_lists] in *. unfold brief in B.
  destruct (held_split hs l (rg_nodup _ _ _ _ G) I) as (a & h & b & -> & <- & NA & NB).
  assert (Ih : In h (a ++ h :: b)) by (apply in_or_app; right; left; auto).
  pose proof (rg_obj _ _ _ _ G h Ih) as O. pose proof (rg_pos _ _ _ _ G h Ih) as P.
  rewrite more_split; auto. unfold nodelist_ref, bind, lload. rewrite O. cbn [nl_root nl_req nl_ref]. rewrite u32_small by lia.
  unfold lput. eexists. split; [reflexivity|]. refine (recount k s d a h b es _ G _). lia.
Qed.

Lemma get_good : forall k s g es root q, rgood k s g es -> brief k -> (0 < hd_doc g)%N -> (forall c, q <> ByName c None) ->
  exists l s' es', get_nodelist root q s = Ok l s' /\ rgood (S k) s' (mkHands (hd_doc g) (got l root q (hd_lists g))) es' /\
    ((exists h, In h (hd_lists g) /\ h_root h = root /\ same_request (h_req h) q /\ h_list h = l) \/
     ((forall h, In h (hd_lists g) -> h_root h = root -> ~ same_request (h_req h) q) /\ r_lists s l = None)).
Proof.
  intros k s g es root q G B D Q.
  assert (A : r_alive s = true). { apply (rgood_alive _ _ _ _ G). auto. }
  pose proof (rg_seg _ _ _ _ G) as Sg.
  assert (L : length es <= r_ne s).
  { rewrite <- (List.map_length fst). apply bounded_length; [apply (rg_nodup_e _ _ _ _ G)|apply (rg_lt_e _ _ _ _ G)]. }
  assert (Ent : forall e x, In (e, x) es -> exists h, In h (hd_lists g) /\ h_list h = x).
  { intros e x I. assert (J : In x (map h_list (hd_lists g))). { rewrite <- (rg_snd _ _ _ _ G). change x with (snd (e, x)). apply in_map. auto. }
    apply in_map_iff in J. destruct J as (h & E & J). eauto. }
  assert (Ent' : forall h, In h (hd_lists g) -> exists e, In (e, h_list h) es).
  { intros h I. assert (J : In (h_list h) (map snd es)). { rewrite (rg_snd _ _ _ _ G). apply in_map. auto. }
    apply in_map_iff in J. destruct J as ([e x] & E & J). cbn in E. subst. eauto. }
  assert (H0 : get_nodelist root q s = (m <- search (S (r_ne s)) (r_head s) root q ;;
    match m with
    | Some e => x <- eload e ;; nodelist_ref (en_list x) ;;; ret (en_list x)
    | None =>
      l <- nodelist_create root q ;;
      h <- head ;;
      fun s =>
        let e := r_ne s in
        (eput e (Some (mkEntry l None h)) ;;;
        (match h with Some o => x <- eload o ;; eput o (Some (mkEntry (en_list x) (Some e) (en_next x))) | None => ret tt end) ;;;
        set_head (Some e) ;;;
        ret l) (mkReg (r_lists s) (r_ents s) (r_head s) (r_nl s) (S e) (r_ref s) (r_alive s))
    end) s).
  { unfold get_nodelist. unfold bind at 1. unfold head at 1. rewrite A. reflexivity. }
  rewrite H0. clear H0.
  destruct (search_ok s root q es (S (r_ne s)) None (r_head s) Sg ltac:(lia)) as [(e & x & y & I & Hy & M & R)|[No R]].
  { intros e x I. destruct (Ent e x I) as (h & J & <-). eexists. apply (rg_obj _ _ _ _ G h J). }
  - destruct (Ent e x I) as (h & J & E). stp R.
    assert (He : exists p n, r_ents s e = Some (mkEntry x p n)).
    { apply in_split in I. destruct I as (l1 & l2 & ->). apply seg_app in Sg. destruct Sg as (kk & _ & S2). cbn [seg] in S2. destruct S2 as (_ & n & He & _). eauto. }
    destruct He as (p & n & He).
    assert (Ix : In x (map h_list (hd_lists g))) by (rewrite <- E; apply in_map; auto).
    destruct (ref_good k s g es x G B Ix) as (s' & R1 & G').
    exists x, s', es. split.
    + unfold bind at 1, eload at 1. rewrite He. cbn [en_list]. stp R1. reflexivity.
    + split.
      * unfold got. assert (X : existsb (fun h => Nat.eqb (h_list h) x) (hd_lists g) = true).
        { apply existsb_exists. exists h. split; auto. rewrite E. apply Nat.eqb_refl. }
        rewrite X. exact G'.
      * left. exists h. apply match_iff in M. rewrite <- E in Hy. rewrite (rg_obj _ _ _ _ G h J) in Hy. inversion Hy; subst y. cbn [nl_root nl_req] in M. tauto.
  - stp R.
    assert (Nx : forall h, In h (hd_lists g) -> h_root h = root -> ~ same_request (h_req h) q).
    { intros h J Er Rq. destruct (Ent' h J) as (e & I). specialize (No e (h_list h) _ I (rg_obj _ _ _ _ G h J)).
      assert (T : nodelist_match (mkNlist (h_root h) (h_req h) (h_count h)) root q = true) by (apply match_iff; auto). congruence. }
    pose proof (rgood_refs k s g es 0 G) as B0. pose proof (rgood_refs k s g es root G) as B1. unfold brief in B.
    set (l := r_nl s). set (e := r_ne s).
    set (ref1 := at_ (r_ref s) 0 (r_ref s 0 + 1)%N). set (ref2 := at_ ref1 root (ref1 root + 1)%N).
    assert (B2 : (ref1 root <= 3 * N.of_nat k + 2)%N).
    { unfold ref1, at_. destruct (Nat.eqb 0 root); lia. }
    set (s1 := mkReg (at_ (r_lists s) l (Some (mkNlist root q 1))) (r_ents s) (r_head s) (S l) (r_ne s) ref2 true).
    assert (C : nodelist_create root q s = Ok l s1).
    { unfold nodelist_create, node_ref, usable, bind. cbn [Nat.eqb]. rewrite A. cbn [negb andb r_alive r_ref].
      rewrite (u32_small (r_ref s 0 + 1)) by lia. rewrite A. cbn [negb]. rewrite andb_false_r. cbn [r_lists r_ents r_head r_nl r_ne r_ref r_alive].
      fold ref1. rewrite (u32_small (ref1 root + 1)) by lia. fold ref2.
      destruct q as [|c [nm|]|c ns lo]; try reflexivity. exfalso. apply (Q c). auto. }
    stp C. unfold bind at 1. unfold head at 1. cbn [r_alive s1 r_head r_ne]. fold e.
    assert (Fresh : ~ In l (map h_list (hd_lists g))). { intros I. apply (rg_lt _ _ _ _ G) in I. unfold l in I. lia. }
    assert (FreshE : ~ In e (map fst es)). { intros I. apply (rg_lt_e _ _ _ _ G) in I. unfold e in I. lia. }
    assert (Gt : got l root q (hd_lists g) = mkHeld l root q 1 :: hd_lists g).
    { unfold got. destruct (existsb (fun h => Nat.eqb (h_list h) l) (hd_lists g)) eqn:X; auto. apply existsb_exists in X. destruct X as (h & J & Z).
      apply Nat.eqb_eq in Z. exfalso. apply Fresh. rewrite <- Z. apply in_map; auto. }
    assert (Tl : exists E', (eput e (Some (mkEntry l None (r_head s))) ;;;
        (match r_head s with Some o => x <- eload o ;; eput o (Some (mkEntry (en_list x) (Some e) (en_next x))) | None => ret tt end) ;;;
        set_head (Some e) ;;;
        ret l) (mkReg (r_lists s1) (r_ents s) (r_head s) (S l) (S e) ref2 true) = Ok l (mkReg (r_lists s1) E' (Some e) (S l) (S e) ref2 true) /\ seg E' None (Some e) ((e, l) :: es) None).
    { destruct es as [|[o z] es']; cbn [seg] in Sg.
      - rewrite Sg. exists (at_ (r_ents s) e (Some (mkEntry l None None))). split; [reflexivity|]. cbn [seg]. split; auto. exists None. rewrite at_same. auto.
      - destruct Sg as (Hh & n & Ho & Sg). rewrite Hh.
        assert (Oe : e <> o). { intros Z. apply FreshE. rewrite Z. left. auto. }
        exists (at_ (at_ (r_ents s) e (Some (mkEntry l None (Some o)))) o (Some (mkEntry z (Some e) n))). split.
        + unfold bind, eput, eload. cbn [r_lists r_ents r_head r_nl r_ne r_ref r_alive]. rewrite at_other by auto. rewrite Ho. cbn [en_list en_next en_prev].
          unfold set_head. cbn [r_lists r_ents r_head r_nl r_ne r_ref r_alive]. reflexivity.
        + cbn [seg]. split; auto. exists (Some o). rewrite at_other by auto. rewrite at_same. split; auto. split; auto. exists n. rewrite at_same. split; auto.
          pose proof (rg_nodup_e _ _ _ _ G) as N. cbn [map fst] in N. apply NoDup_cons_iff in N. destruct N as [N _].
          refine (seg_frame (r_ents s) _ es' _ _ _ _ Sg). intros f F. rewrite at_other by (intros ->; auto). rewrite at_other; auto. intros ->. apply FreshE. right. auto. }
    destruct Tl as (E' & T1 & T2). exists l, (mkReg (r_lists s1) E' (Some e) (S l) (S e) ref2 true), ((e, l) :: es).
    split; [exact T1|]. split.
    2:{ right. split; auto. apply (rg_none _ _ _ _ G). auto. }
    rewrite Gt. destruct G as [g1 g2 g3 g4 g5 g6 g7 g8 g9 g10 g11 g12 g13 g14 g15].
    constructor; cbn [r_lists r_ents r_head r_nl r_ne r_ref r_alive hd_doc hd_lists s1 map fst snd h_list].
    + exact T2.
    + congruence.
    + constructor; auto.
    + intros f [<-|F]; [lia|]. specialize (g4 f F). fold e in g4. lia.
    + constructor; auto.
    + intros x [<-|F]; [lia|]. specialize (g6 x F). fold l in g6. lia.
    + intros h [<-|I]; cbn [h_list h_root h_req h_count]; [apply at_same|]. rewrite at_other; auto. intros ->. apply Fresh. apply in_map. auto.
    + intros x X. cbn [In] in X. rewrite at_other; [apply g8|]; tauto.
    + intros h [<-|I]; cbn [h_count]; [lia|]. specialize (g9 h I). lia.
    + intros h c [<-|I]; cbn [h_req]; auto.
    + intros h1 h2 [<-|I1] [<-|I2]; cbn [h_root h_req h_list]; auto.
      * intros Er Rq. exfalso. apply (Nx h2 I2); auto. apply same_request_sym. auto.
      * intros Er Rq. exfalso. apply (Nx h1 I1); auto.
    + intros n. cbn [roots h_root length]. unfold ref2, at_. rewrite (Nat.eqb_sym root n). unfold ref1, at_. destruct (Nat.eqb_spec root n) as [->|X].
      * rewrite Nat.eqb_refl, (g12 n). rewrite (Nat.eqb_sym 0 n). destruct (Nat.eqb_spec n 0) as [->|]; [rewrite g12; cbn [Nat.eqb]|]; lia.
      * destruct (Nat.eqb_spec n root); [congruence|]. rewrite (Nat.eqb_sym 0 n). rewrite (g12 n). destruct (Nat.eqb_spec n 0) as [->|]; [rewrite g12; cbn [Nat.eqb]|]; lia.
    + unfold ref2, ref1, at_. cbn [Nat.eqb]. destruct (Nat.eqb root 0); lia.
    + lia.
    + cbn [length]. lia.
Qed.

Lemma same_cut : forall (x : nat) u1 u2 v1 v2, u1 ++ x :: u2 = v1 ++ x :: v2 -> ~ In x u1 -> ~ In x v1 -> u1 = v1 /\ u2 = v2.
Proof.
  intros x u1. induction u1 as [|a u1 IH]; intros u2 [|b v1] v2 H N1 N2; cbn [app] in H; inversion H; subst.
  - auto.
  - exfalso. apply N2. left. auto.
  - exfalso. apply N1. left. auto.
  - destruct (IH u2 v1 v2) as [-> ->]; auto; intros I; [apply N1|apply N2]; right; auto.
Qed.

Lemma unref_good : forall k s g es l, rgood k s g es -> brief k -> In l (map h_list (hd_lists g)) ->
  exists s' es', nodelist_unref l s = Ok tt s' /\ rgood (S k) s' (mkHands (hd_doc g) (fewer l (hd_lists g))) es'.
Proof.
  intros k s [d hs] es l G B I. cbn [hd_doc hd_lists] in *. 
  destruct (held_split hs l (rg_nodup _ _ _ _ G) I) as (a & h & b & -> & <- & NA & NB).
  assert (Ih : In h (a ++ h :: b)) by (apply in_or_app; right; left; auto).
  pose proof (rg_obj _ _ _ _ G h Ih) as O. pose proof (rg_pos _ _ _ _ G h Ih) as P.
  pose proof (rgood_refs k s _ es 0 G) as B0. pose proof (rgood_refs k s _ es (h_root h) G) as B1.
  assert (A : r_alive s = true). { apply (rgood_alive _ _ _ _ G). right. cbn [hd_lists]. destruct a; discriminate. }
  unfold brief in B.
  rewrite fewer_split; auto. 2:{ intros h' I'. apply (rg_pos _ _ _ _ G h' I'). }
  unfold nodelist_unref. unfold bind at 1, lload at 1. rewrite O. cbn [nl_root nl_req nl_ref]. rewrite u32_dec by lia.
  unfold bind at 1, lput at 1.
  destruct (h_count h - 1 =? 0)%N eqn:Z; cbn [negb].
  2:{ eexists. exists es. split; [reflexivity|]. refine (recount k s d a h b es _ G _). lia. }
  set (l := h_list h) in *. set (root := h_root h) in *.
  set (L1 := at_ (r_lists s) l _).
  assert (R0 : r_ref s 0 = (roots 0 (a ++ h :: b) + (d + N.of_nat (length (a ++ h :: b))))%N) by (rewrite (rg_ref _ _ _ _ G); reflexivity).
  assert (Rr : r_ref s root = (roots root (a ++ h :: b) + (if Nat.eqb root 0 then d + N.of_nat (length (a ++ h :: b)) else 0))%N) by (rewrite (rg_ref _ _ _ _ G); reflexivity).
  rewrite !roots_app, !app_length in R0. cbn [roots length] in R0. fold root in R0.
  rewrite !roots_app, !app_length in Rr. cbn [roots length] in Rr. fold root in Rr. rewrite Nat.eqb_refl in Rr.
  assert (RR : forall m, root = m -> r_ref s root = r_ref s m) by (intros m E; f_equal; exact E).
  set (ref1 := at_ (r_ref s) root (r_ref s root - 1)%N).
  assert (P0 : (1 <= ref1 0%nat)%N).
  { unfold ref1, at_. destruct (Nat.eqb root 0) eqn:E0; [apply Nat.eqb_eq in E0; specialize (RR 0 E0)|]; lia. }
  assert (Q0 : (ref1 0%nat <= 3 * N.of_nat k + 1)%N).
  { unfold ref1, at_. destruct (Nat.eqb root 0) eqn:E0; lia. }
  assert (U1 : node_unref root (mkReg L1 (r_ents s) (r_head s) (r_nl s) (r_ne s) (r_ref s) (r_alive s)) = Ok tt (mkReg L1 (r_ents s) (r_head s) (r_nl s) (r_ne s) ref1 true)).
  { unfold node_unref, bind, usable. cbn [r_lists r_ents r_head r_nl r_ne r_ref r_alive]. rewrite A. cbn [negb]. rewrite andb_false_r.
    cbn [r_lists r_ents r_head r_nl r_ne r_ref r_alive]. rewrite u32_dec by lia. fold ref1. do 2 f_equal.
    cbn [andb]. destruct (Nat.eqb_spec root 0) as [E0|E0]; auto. cbn [andb].
    assert (X : ref1 0 = (r_ref s root - 1)%N) by (unfold ref1; rewrite E0; apply at_same). rewrite <- X. lia. }
  assert (NM : (match h_req h with ByName _ None => stuck AssertFail | _ => ret tt end) (mkReg L1 (r_ents s) (r_head s) (r_nl s) (r_ne s) (r_ref s) (r_alive s)) = Ok tt (mkReg L1 (r_ents s) (r_head s) (r_nl s) (r_ne s) (r_ref s) (r_alive s))).
  { pose proof (rg_name _ _ _ _ G h) as Q. destruct (h_req h) as [|c [nm|]|c ns lo]; try reflexivity. exfalso. apply (Q c Ih). auto. }
  stp NM. stp U1.
  assert (L : length es <= r_ne s).
  { rewrite <- (List.map_length fst). apply bounded_length; [apply (rg_nodup_e _ _ _ _ G)|apply (rg_lt_e _ _ _ _ G)]. }
  pose proof (rg_snd _ _ _ _ G) as SN. cbn [hd_lists] in SN.
  destruct (remove_ok (mkReg L1 (r_ents s) (r_head s) (r_nl s) (r_ne s) ref1 true) es l) as (l1 & e & l2 & E' & h' & Es & R & Sg); auto.
  { apply (rg_seg _ _ _ _ G). }
  { apply (rg_nodup_e _ _ _ _ G). }
  { rewrite SN. apply (rg_nodup _ _ _ _ G). }
  { rewrite SN. auto. }
  stp R. cbn [r_lists r_ents r_head r_nl r_ne r_ref r_alive] in *. unfold bind at 1, lput at 1. cbn [r_lists r_ents r_head r_nl r_ne r_ref r_alive].
  set (L2 := at_ L1 l None). set (ref2 := at_ ref1 0 (ref1 0%nat - 1)%N).
  exists (mkReg L2 E' h' (r_nl s) (r_ne s) ref2 (negb (ref1 0%nat - 1 =? 0)%N)), (l1 ++ l2).
  split.
  { unfold node_unref, bind, usable. cbn [r_lists r_ents r_head r_nl r_ne r_ref r_alive negb andb Nat.eqb]. rewrite u32_dec by lia. reflexivity. }
  assert (SN' : map snd (l1 ++ l2) = map h_list (a ++ b)).
  { pose proof (rg_nodup _ _ _ _ G) as ND. cbn [hd_lists] in ND. rewrite <- SN, Es in ND. rewrite map_app in ND. cbn [map snd] in ND. apply NoDup_remove_2 in ND.
    rewrite Es, !map_app in SN. cbn [map snd] in SN. fold l in SN. apply same_cut in SN; auto.
    - destruct SN as [S1 S2]. rewrite !map_app, S1, S2. auto.
    - intros X. apply ND. apply in_or_app. auto. }
  assert (Sub : forall x, In x (a ++ b) -> In x (a ++ h :: b)).
  { intros x X. apply in_app_or in X. apply in_or_app. destruct X; [left|right; right]; auto. }
  destruct G as [g1 g2 g3 g4 g5 g6 g7 g8 g9 g10 g11 g12 g13 g14 g15]. cbn [hd_doc hd_lists] in *.
  assert (ND : NoDup (map h_list a ++ l :: map h_list b)) by (rewrite map_app in g5; exact g5).
  apply NoDup_remove in ND. destruct ND as [ND NI]. rewrite <- map_app in ND, NI.
  rewrite Es, map_app in g3, g4. cbn [map fst] in g3, g4.
  constructor; cbn [r_lists r_ents r_head r_nl r_ne r_ref r_alive hd_doc hd_lists]; auto.
  - rewrite map_app. apply NoDup_remove in g3. tauto.
  - intros f F. rewrite map_app in F. apply g4. apply in_app_or in F. apply in_or_app. destruct F; [left|right; right]; auto.
  - intros x X. apply g6. apply in_map_iff in X. destruct X as (y & <- & X). apply in_map. auto.
  - intros x X. unfold L2, L1. rewrite !at_other; auto; intros E; apply NI; rewrite E; apply in_map; auto.
  - intros x X. unfold L2, L1. destruct (Nat.eq_dec l x) as [<-|E]; [apply at_same|]. rewrite !at_other; auto. apply g8.
    rewrite !map_app in *. cbn [map]. rewrite in_app_iff in *. cbn [In]. fold l. tauto.
  - intros x X. specialize (g9 x (Sub x X)). lia.
  - intros n. rewrite roots_app, app_length. specialize (g12 n). rewrite roots_app, app_length in g12. cbn [roots length] in g12. fold root in g12.
    unfold ref2, ref1, at_. rewrite (Nat.eqb_sym 0 n).
    destruct (Nat.eqb_spec n 0) as [->|X].
    + destruct (Nat.eqb root 0) eqn:E0; [apply Nat.eqb_eq in E0; specialize (RR 0 E0)|]; lia.
    + destruct (Nat.eqb root n) eqn:E0; [apply Nat.eqb_eq in E0; specialize (RR n E0)|]; lia.
  - lia.
  - rewrite app_length in *. cbn [length] in g15. lia.
Qed.

Lemma doc_ref_good : forall k s g es, rgood k s g es -> brief k -> (0 < hd_doc g)%N ->
  exists s', node_ref 0 s = Ok tt s' /\ rgood (S k) s' (mkHands (hd_doc g + 1) (hd_lists g)) es.
Proof.
  intros k s g es G B D. pose proof (rgood_refs k s g es 0 G) as B0. unfold brief in B.
  assert (A : r_alive s = true). { apply (rgood_alive _ _ _ _ G). auto. }
  eexists. split.
  { unfold node_ref, bind, usable. rewrite A. cbn [Nat.eqb negb andb]. rewrite u32_small by lia. rewrite A. reflexivity. }
  destruct G as [g1 g2 g3 g4 g5 g6 g7 g8 g9 g10 g11 g12 g13 g14 g15].
  constructor; cbn [r_lists r_ents r_head r_nl r_ne r_ref r_alive hd_doc hd_lists]; auto.
  - intros h I. specialize (g9 h I). lia.
  - intros n. specialize (g12 n). unfold at_. rewrite (Nat.eqb_sym 0 n). destruct (Nat.eqb n 0) eqn:E0; [apply Nat.eqb_eq in E0; subst n|]; lia.
  - rewrite at_same. lia.
  - lia.
Qed.
Lemma doc_unref_good : forall k s g es, rgood k s g es -> brief k -> (0 < hd_doc g)%N ->
  exists s', node_unref 0 s = Ok tt s' /\ rgood (S k) s' (mkHands (hd_doc g - 1) (hd_lists g)) es.
Proof.
  intros k s g es G B D. pose proof (rgood_refs k s g es 0 G) as B0. unfold brief in B.
  assert (A : r_alive s = true). { apply (rgood_alive _ _ _ _ G). auto. }
  assert (R0 : (hd_doc g <= r_ref s 0)%N). { rewrite (rg_ref _ _ _ _ G). cbn [Nat.eqb]. lia. }
  eexists. split.
  { unfold node_unref, bind, usable. rewrite A. cbn [Nat.eqb negb andb]. rewrite u32_dec by lia. rewrite A. cbn [andb]. reflexivity. }
  destruct G as [g1 g2 g3 g4 g5 g6 g7 g8 g9 g10 g11 g12 g13 g14 g15].
  constructor; cbn [r_lists r_ents r_head r_nl r_ne r_ref r_alive hd_doc hd_lists]; auto.
  - intros h I. specialize (g9 h I). lia.
  - intros n. specialize (g12 n). unfold at_. rewrite (Nat.eqb_sym 0 n). destruct (Nat.eqb n 0) eqn:E0; [apply Nat.eqb_eq in E0; subst n|]; lia.
  - lia.
Qed.

Lemma step_good : forall k s g es o, rgood k s g es -> brief k -> rlegal g o ->
  exists r s' es', rexec o s = Ok r s' /\ rgood (S k) s' (takes o r g) es'.
Proof.
  intros k s g es o G B L. destruct o as [root q|l|l| |]; cbn [rlegal] in L.
  - destruct L as [D Q]. destruct (get_good k s g es root q G B D Q) as (l & s' & es' & R & G' & _).
    exists (Some l), s', es'. split; auto. unfold rexec. stp R. reflexivity.
  - destruct (ref_good k s g es l G B L) as (s' & R & G'). exists None, s', es. split; auto. unfold rexec. stp R. reflexivity.
  - destruct (unref_good k s g es l G B L) as (s' & es' & R & G'). exists None, s', es'. split; auto. unfold rexec. stp R. reflexivity.
  - destruct (doc_ref_good k s g es G B L) as (s' & R & G'). exists None, s', es. split; auto. unfold rexec. stp R. reflexivity.
  - destruct (doc_unref_good k s g es G B L) as (s' & R & G'). exists None, s', es. split; auto. unfold rexec. stp R. reflexivity.
Qed.
Lemma start_good : rgood 0 new_reg (mkHands 1 []) [].
Proof.
  constructor; cbn [new_reg r_lists r_ents r_head r_nl r_ne r_ref r_alive hd_doc hd_lists map length roots seg].
  - reflexivity.
  - reflexivity.
  - constructor.
  - intros e [].
  - constructor.
  - intros l [].
  - intros h [].
  - reflexivity.
  - intros h [].
  - intros h c [].
  - intros h1 h2 [].
  - intros n. destruct (Nat.eqb n 0); reflexivity.
  - reflexivity.
  - lia.
  - lia.
Qed.
Lemma reach_rgood : forall k s g, rreach k s g -> brief k -> exists es, rgood k s g es.
Proof.
  intros k s g H. induction H as [|k s g o r s' H IH L X]; intros B.
  - exists []. apply start_good.
  - assert (B' : brief k) by (unfold brief in *; lia). destruct (IH B') as (es & G).
    destruct (step_good k s g es o G B' L) as (r1 & s1 & es' & R & G'). rewrite R in X. inversion X; subst. eauto.
Qed.

(** ** The theorems *)
Lemma reg_get k s g root q : rreach k s g -> brief k -> rlegal g (RGet root q) ->
  exists l s', rexec (RGet root q) s = Ok (Some l) s' /\
    ((exists h, In h (hd_lists g) /\ h_root h = root /\ same_request (h_req h) q /\ h_list h = l) \/
     ((forall h, In h (hd_lists g) -> h_root h = root -> ~ same_request (h_req h) q) /\ r_lists s l = None)).
Proof.
  intros H B [D Q]. destruct (reach_rgood _ _ _ H B) as (es & G).
  destruct (get_good k s g es root q G B D Q) as (l & s' & es' & R & G' & C).
  exists l, s'. split; auto. unfold rexec. stp R. reflexivity.
Qed.
Lemma reg_safe k s g o : rreach k s g -> brief k -> rlegal g o -> exists r s', rexec o s = Ok r s'.
Proof.
  intros H B L. destruct (reach_rgood _ _ _ H B) as (es & G). destruct (step_good k s g es o G B L) as (r & s' & es' & R & _). eauto.
Qed.
Lemma reg_counts k s g : rreach k s g -> brief k ->
  NoDup (map h_list (hd_lists g)) /\
  (forall h, In h (hd_lists g) -> (0 < h_count h)%N /\ r_lists s (h_list h) = Some (mkNlist (h_root h) (h_req h) (h_count h))) /\
  (forall l, ~ holds_list g l -> r_lists s l = None).
Proof.
  intros H B. destruct (reach_rgood _ _ _ H B) as (es & G). split; [apply (rg_nodup _ _ _ _ G)|]. split.
  - intros h I. split; [apply (rg_pos _ _ _ _ G h I)|apply (rg_obj _ _ _ _ G h I)].
  - apply (rg_none _ _ _ _ G).
Qed.
Lemma reg_registered k s g : rreach k s g -> brief k -> remembers s (r_head s) (map h_list (hd_lists g)).
Proof.
  intros H B. destruct (reach_rgood _ _ _ H B) as (es & G). rewrite <- (rg_snd _ _ _ _ G). apply (seg_remembers s es None _ (rg_seg _ _ _ _ G)).
Qed.
Lemma reg_document k s g : rreach k s g -> brief k -> (r_alive s = true <-> (0 < hd_doc g)%N \/ hd_lists g <> []).
Proof. intros H B. destruct (reach_rgood _ _ _ H B) as (es & G). apply (rgood_alive _ _ _ _ G). Qed.
Lemma reg_roots k s g n : rreach k s g -> brief k -> n <> 0 -> r_ref s n = N.of_nat (length (filter (fun h => Nat.eqb (h_root h) n) (hd_lists g))).
Proof.
  intros H B X. destruct (reach_rgood _ _ _ H B) as (es & G). rewrite (rg_ref _ _ _ _ G). destruct (Nat.eqb_spec n 0); [congruence|].
  induction (hd_lists g) as [|h t IH]; cbn [roots filter length]; auto. destruct (Nat.eqb (h_root h) n); cbn [length]; lia.
Qed.
Lemma rreach_next k s g o r s' : rreach k s g -> rlegal g o -> rexec o s = Ok r s' -> rreach (S k) s' (takes o r g).
Proof. intros. eapply rr_call; eauto. Qed.
Lemma reg_twice k s g root q q' : rreach k s g -> brief (S k) -> rlegal g (RGet root q) -> rlegal g (RGet root q') -> same_request q q' ->
  exists l s' s'' n m, rexec (RGet root q) s = Ok (Some l) s' /\ rexec (RGet root q') s' = Ok (Some l) s'' /\
    r_lists s' l = Some n /\ r_lists s'' l = Some m /\ nl_ref m = (nl_ref n + 1)%N /\ nl_root m = root.
Proof.
  intros H B L L' E. assert (B' : brief k) by (unfold brief in *; lia).
  destruct (reg_get k s g root q H B' L) as (l & s' & R & C).
  pose proof (rreach_next _ _ _ _ _ _ H L R) as H'. destruct (reach_rgood _ _ _ H B') as (es & G). destruct (reach_rgood _ _ _ H' B) as (es' & G').
  assert (L2 : rlegal (takes (RGet root q) (Some l) g) (RGet root q')) by exact L'.
  destruct (reg_get (S k) s' _ root q' H' B L2) as (l' & s'' & R' & C').
  assert (trans : forall a b c, same_request a b -> same_request b c -> same_request a c).
  { assert (AT : forall c x y z, alike c x y -> alike c y z -> alike c x z).
    { intros c x y z. rewrite <- !same_string_iff. unfold same_string. destruct c; [apply caseless_trans|rewrite !string_isequal_iff; congruence]. }
    intros a b c H1 H2. destruct H1; inversion H2; subst; constructor; eauto. }
  assert (Hh : exists h, In h (hd_lists (takes (RGet root q) (Some l) g)) /\ h_root h = root /\ same_request (h_req h) q' /\ h_list h = l).
  { cbn [takes hd_lists]. destruct C as [(h & I & Er & Rq & El)|[No Nn]].
    - unfold got. assert (X : existsb (fun h => Nat.eqb (h_list h) l) (hd_lists g) = true).
      { apply existsb_exists. exists h. split; auto. rewrite El. apply Nat.eqb_refl. }
      rewrite X. exists (mkHeld l (h_root h) (h_req h) (h_count h + 1)). split.
      + unfold more. apply in_map_iff. exists h. rewrite El, Nat.eqb_refl. auto.
      + cbn [h_root h_req h_list]. split; auto. split; auto. eapply trans; eauto.
    - unfold got. destruct (existsb (fun h => Nat.eqb (h_list h) l) (hd_lists g)) eqn:X.
      + apply existsb_exists in X. destruct X as (h & I & Z). apply Nat.eqb_eq in Z. rewrite <- Z in Nn. rewrite (rg_obj _ _ _ _ G h I) in Nn. discriminate.
      + exists (mkHeld l root q 1). split; [left; auto|]. auto. }
  destruct Hh as (h & I & Er & Rq & El).
  assert (El' : l' = l).
  { destruct C' as [(h' & I' & Er' & Rq' & <-)|[No _]].
    - rewrite <- El. apply (rg_uniq _ _ _ _ G' h' h); auto; [congruence|]. eapply trans; [exact Rq'|]. apply same_request_sym. auto.
    - exfalso. apply (No h I); auto. }
  subst l'. destruct (reach_rgood _ _ _ H B') as (es0 & _).
  exists l, s', s'', (mkNlist root (h_req h) (h_count h)), (mkNlist root (h_req h) (h_count h + 1)).
  split; auto. split; auto. split.
  { rewrite <- El, (rg_obj _ _ _ _ G' h I), Er. auto. }
  split; [|split; reflexivity].
  (* the second call is the reference *)
  destruct (get_good (S k) s' _ es' root q' G' B) as (l2 & s2 & es2 & R2 & G2 & _); try apply L2.
  unfold rexec in R'. rewrite (rb _ _ _ _ _ _ _ _ R2) in R'. cbn in R'. inversion R'; subst l2 s2.
  set (hs := hd_lists (takes (RGet root q) (Some l) g)) in *.
  pose proof (rg_obj _ _ _ _ G2 (mkHeld l root (h_req h) (h_count h + 1))) as F. cbn [h_list h_root h_req h_count hd_lists] in F. apply F.
  unfold got. assert (X : existsb (fun h => Nat.eqb (h_list h) l) hs = true).
  { apply existsb_exists. exists h. split; auto. rewrite El. apply Nat.eqb_refl. }
  rewrite X. unfold more. apply in_map_iff. exists h. rewrite El, Nat.eqb_refl, Er. auto.
Qed.
Lemma remembers_fun : forall s h l1 l2, remembers s h l1 -> remembers s h l2 -> l1 = l2.
Proof.
  intros s h l1 l2 H. revert l2. induction H as [|e x ls He H IH]; intros l2 H2; inversion H2; subst; auto.
  replace x0 with x in * by congruence. f_equal. apply IH. auto.
Qed.
Lemma reg_release k s g h : rreach k s g -> brief (S k) -> In h (hd_lists g) ->
  exists s', rexec (RUnref (h_list h)) s = Ok None s' /\
    (h_count h = 1%N -> r_lists s' (h_list h) = None /\ forall ls, remembers s' (r_head s') ls -> ~ In (h_list h) ls) /\
    ((1 < h_count h)%N -> r_lists s' (h_list h) = Some (mkNlist (h_root h) (h_req h) (h_count h - 1))) /\
    (forall l, l <> h_list h -> r_lists s' l = r_lists s l).
Proof.
  intros H B I. assert (B' : brief k) by (unfold brief in *; lia). destruct (reach_rgood _ _ _ H B') as (es & G).
  assert (Il : In (h_list h) (map h_list (hd_lists g))) by (apply in_map; auto).
  destruct (unref_good k s g es (h_list h) G B' Il) as (s' & es' & R & G').
  exists s'. split; [unfold rexec; stp R; reflexivity|].
  destruct (held_split (hd_lists g) (h_list h) (rg_nodup _ _ _ _ G) Il) as (a & h0 & b & E & E0 & NA & NB).
  assert (h0 = h).
  { rewrite E in I. apply in_app_or in I. destruct I as [I|[I|I]]; auto.
    - exfalso. apply NA. apply in_map. auto.
    - exfalso. apply NB. apply in_map. auto. }
  subst h0. assert (P : forall h', In h' (a ++ h :: b) -> (0 < h_count h')%N). { rewrite <- E. intros h' I'. apply (rg_pos _ _ _ _ G h' I'). }
  rewrite E in G'. rewrite fewer_split in G' by auto.
  assert (Ih : In h (a ++ h :: b)) by (apply in_or_app; right; left; auto).
  split; [|split].
  - intros C1. rewrite C1 in G'. cbn [N.eqb N.sub Pos.sub_mask] in G'. change (1 - 1 =? 0)%N with true in G'. cbn [hd_lists] in G'.
    assert (Nn : ~ In (h_list h) (map h_list (a ++ b))). { rewrite map_app, in_app_iff. tauto. }
    split; [apply (rg_none _ _ _ _ G'); auto|]. intros ls Rm. pose proof (seg_remembers s' es' None _ (rg_seg _ _ _ _ G')) as Rm'.
    rewrite (remembers_fun _ _ _ _ Rm Rm'), (rg_snd _ _ _ _ G'). auto.
  - intros C1. destruct (N.eqb_spec (h_count h - 1) 0) as [Z|Z]; [lia|].
    apply (rg_obj _ _ _ _ G' (mkHeld (h_list h) (h_root h) (h_req h) (h_count h - 1))). cbn [hd_lists]. apply in_or_app. right. left. auto.
  - intros l Nl. destruct (in_dec Nat.eq_dec l (map h_list (hd_lists g))) as [J|J].
    + apply in_map_iff in J. destruct J as (x & <- & J). rewrite (rg_obj _ _ _ _ G x J). rewrite E in J.
      assert (J' : In x (a ++ b)). { apply in_app_or in J. apply in_or_app. destruct J as [J|[J|J]]; auto. subst x. congruence. }
      apply (rg_obj _ _ _ _ G' x). cbn [hd_lists]. apply in_app_or in J'. destruct (h_count h - 1 =? 0)%N; apply in_or_app; destruct J'; auto. right. right. auto.
    + rewrite (rg_none _ _ _ _ G l J). apply (rg_none _ _ _ _ G'). cbn [hd_lists]. intros X. apply J. rewrite E, map_app. apply in_or_app.
      destruct (h_count h - 1 =? 0)%N; rewrite map_app in X; apply in_app_or in X; cbn [map h_list] in X; destruct X as [X|X]; [left; exact X|right; right; exact X|left; exact X|right; exact X].
Qed.
