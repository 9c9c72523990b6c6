(** Adjacent text: what wholeText and replaceWholeText do when at most one text
    node stands on either side. *)
From Coq Require Import List Arith NArith Bool Lia.
From Verif Require Import Base Utf8Model StringModel StringSpec HeapModel HeapSpec HeapExec HeapInv HeapLoops HistModel TreeSpec
  WalkModel WalkSpec WalkProofs CharDataModel CharDataSpec CharDataProofs.
Import ListNotations.
Local Open Scope dom_scope.

(** ** Siblings *)
Lemma fwd_next : forall h A o t B n, fwd h o (A ++ t :: B) -> h t = Some n -> fwd h (n_next n) B.
Proof.
  intros h. induction A as [|x A IH]; intros o t B n F H; cbn [app] in F.
  - inversion F as [|y m l H1 H2]; subst. assert (m = n) by congruence; subst. auto.
  - inversion F as [|y m l H1 H2]; subst. eapply IH; eauto.
Qed.
Lemma bwd_prev : forall h A o t B n, bwd h o (A ++ t :: B) -> h t = Some n -> bwd h (n_prev n) B.
Proof.
  intros h. induction A as [|x A IH]; intros o t B n F H; cbn [app] in F.
  - inversion F as [|y m l H1 H2]; subst. assert (m = n) by congruence; subst. auto.
  - inversion F as [|y m l H1 H2]; subst. eapply IH; eauto.
Qed.
Lemma fwd_first : forall h o l, fwd h o l -> o = hd_error l.
Proof. intros h o l F. destruct F; auto. Qed.
Lemma bwd_first : forall h o l, bwd h o l -> o = hd_error l.
Proof. intros h o l F. destruct F; auto. Qed.

Lemma text_childless : forall s x n, linked s -> s_heap s x = Some n -> n_type n = TEXT -> n_first n = None /\ n_last n = None.
Proof.
  intros s x n L H T. destruct (ln_lists _ L x) as (l & m & A & F & B & _ & M). { exists n; auto. }
  assert (m = n) by congruence; subst m. destruct l as [|c l].
  - cbn in B. inversion F. inversion B. auto.
  - exfalso. destruct (proj1 (M c) (or_introl eq_refl)) as (nc & C1 & C2 & C3). pose proof (ln_nests _ L _ _ _ _ C1 C2 H C3) as Q.
    rewrite T in Q. inversion Q as [p' c' Y1 Y2|c' Y|c' Y]; subst; destruct Y1 as [Y1|[Y1|[Y1|[Y1|[]]]]]; discriminate.
Qed.

(** ** One side of the walk *)
Definition glue (sd : side) (acc : option bytes) (vs : list bytes) : option bytes :=
  match vs, acc with
  | [], _ => acc
  | v :: _, None => Some v
  | v :: _, Some a => Some (match sd with LEFT => v ++ a | RIGHT => a ++ v end)
  end.

Lemma near_run : forall h l vs, near h l -> run h l vs -> l = [] /\ vs = [] \/
  exists x n r, l = x :: r /\ h x = Some n /\
    (vs = [] /\ (n_type n = ELEMENT \/ n_type n = COMMENT \/ n_type n = PI) \/ exists v, vs = [v] /\ n_type n = TEXT /\ n_value n = Some v).
Proof.
  intros h l vs N R. destruct R as [|x n v l vs H T V R|x n l H T]; auto; right; exists x, n, l; split; auto; split; auto.
  right. exists v. destruct N as [N1 N2]. unfold type_of in *. rewrite H in *. simpl in *.
  destruct T as [T|T]; [|congruence]. split; [|auto]. f_equal. specialize (N2 (f_equal Some T)).
  destruct R as [|y m w l vs H' T' V' R'|y m l H' T']; auto. exfalso. rewrite H' in N2. simpl in N2. destruct N2, T'; congruence.
Qed.

Lemma side_ok : forall s sd l vs acc, linked s -> near (s_heap s) l -> run (s_heap s) l vs ->
  adj_walk sd COLLECT (hd_error l) acc s = Ok (glue sd acc vs) s.
Proof.
  intros s sd l vs acc L N R. destruct (near_run _ _ _ N R) as [[-> ->]|(x & n & r & -> & H & Q)].
  { cbn. destruct acc; reflexivity. }
  cbn [hd_error]. unfold adj_walk. step (load_ok s x n H). unfold with_fuel, fuel_of.
  destruct Q as [[-> T]|(v & -> & T & V)].
  - replace (2 * s_nxt s + 8) with (S (2 * s_nxt s + 7)) by lia. cbn [adj_loop]. step (load_ok s x n H).
    destruct T as [->|[->| ->]]; destruct acc; reflexivity.
  - replace (2 * s_nxt s + 8) with (S (2 * s_nxt s + 7)) by lia. cbn [adj_loop]. step (load_ok s x n H). rewrite T.
    destruct (text_childless s x n L H T) as [-> ->]. rewrite V. destruct acc as [a|]; destruct sd; reflexivity.
Qed.

Theorem whole_ok : forall s p A t B v w np nt, linked s -> s_heap s p = Some np -> n_type np <> ENTITY -> children (s_heap s) p (A ++ t :: B) ->
  s_heap s t = Some nt -> n_value nt = Some v ->
  near (s_heap s) (rev A) -> near (s_heap s) B -> whole (s_heap s) A B v w -> get_whole_text t s = Ok (Some w) s.
Proof.
  intros s p A t B v w np nt L Hp NE C Ht V NA NB (vl & vr & RL & RR & ->).
  destruct (ln_lists _ L p) as (l & m & Q1 & F & BW & ND & M). { exists np; auto. }
  destruct C as (m' & Q2 & F'). assert (m' = m) by congruence; subst m'. pose proof (fwd_det _ _ _ F _ F') as E. subst l.
  destruct (proj1 (M t)) as (nt' & T1 & T2 & T3). { apply in_or_app. right. left. auto. }
  assert (nt' = nt) by congruence; subst nt'.
  assert (E1 : n_next nt = hd_error B) by (eapply fwd_first; eapply fwd_next; eauto).
  assert (E2 : n_prev nt = hd_error (rev A)).
  { rewrite rev_app_distr in BW. cbn [rev] in BW. rewrite <- app_assoc in BW. cbn [app] in BW.
    eapply bwd_first. eapply bwd_prev; eauto. }
  unfold get_whole_text, adj_text. step (load_ok s t nt Ht). rewrite T2. rewrite bind_assoc. step (load_ok s p np Hp).
  rewrite check_true. 2:{ destruct (n_type np); try reflexivity. contradiction. }
  rewrite E2. step (side_ok s LEFT (rev A) vl None L NA RL). rewrite bind_assoc. step (load_ok s t nt Ht). rewrite V.
  assert (KL : glue LEFT None vl = match vl with [] => None | x :: _ => Some x end) by (destruct vl; reflexivity).
  assert (SL : vl = [] \/ exists x, vl = [x]).
  { destruct (near_run _ _ _ NA RL) as [[_ ?]|(x & n & r & _ & _ & [[? _]|(y & ? & _)])]; eauto. }
  assert (SR : vr = [] \/ exists x, vr = [x]).
  { destruct (near_run _ _ _ NB RR) as [[_ ?]|(x & n & r & _ & _ & [[? _]|(y & ? & _)])]; eauto. }
  rewrite E1.
  destruct SL as [->|(x & ->)]; cbn [glue].
  - rewrite bind_ret. rewrite (side_ok s RIGHT B vr (Some v) L NB RR). destruct SR as [->|(y & ->)]; cbn; rewrite ?app_nil_r; reflexivity.
  - change (adj_walk RIGHT COLLECT (hd_error B) (Some (x ++ v)) s = Ok (Some (concat (rev [x]) ++ v ++ concat vr)) s).
    rewrite (side_ok s RIGHT B vr (Some (x ++ v)) L NB RR). destruct SR as [->|(y & ->)]; cbn; rewrite ?app_nil_r, ?app_assoc; reflexivity.
Qed.

(** ** replaceWholeText *)
Lemma bind_Ok : forall (A B : Type) (m : M st A) (k : A -> M st B) s b s', bind m k s = Ok b s' ->
  exists a s1, m s = Ok a s1 /\ k a s1 = Ok b s'.
Proof. intros A B m k s b s' E. unfold bind in E. destruct (m s) as [a s1| |]; try discriminate. eauto. Qed.

Lemma load_Ok : forall i s n s', load i s = Ok n s' -> s' = s /\ s_heap s i = Some n.
Proof. intros i s n s' E. unfold load in E. destruct (s_heap s i); inversion E; auto. Qed.

Lemma upd_Ok : forall i f s u s', upd i f s = Ok u s' -> exists n, s_heap s i = Some n /\ s_heap s' i = Some (f n).
Proof.
  intros i f s u s' E. unfold upd in E. destruct (s_heap s i) as [n|] eqn:H; [|discriminate]. exists n. split; auto. inversion E. simpl.
  unfold withh, hmod, hupd. simpl. rewrite ?Nat.eqb_refl, ?H. simpl. rewrite ?Nat.eqb_refl, ?H. auto.
Qed.

Lemma keeps_fire : forall e s u s', fire e s = Ok u s' -> s_heap s' = s_heap s.
Proof. intros e s u s' E. inversion E. auto. Qed.

Lemma parent_event_Ok : forall d p s u s', parent_event d p s = Ok u s' -> s_heap s' = s_heap s.
Proof.
  intros d p s u s' E. unfold parent_event in E. destruct p as [p|]; [|inversion E; auto]. unfold subtree_event in E.
  apply bind_Ok in E as (a & s1 & E1 & E). unfold deref in E1. destruct d as [d|]; inversion E1; subst.
  apply bind_Ok in E as (b & s2 & E2 & E). apply load_Ok in E2 as [-> _].
  apply keeps_fire in E. auto.
Qed.

Lemma store_data_Ok : forall i v s u s', store_data i v s = Ok u s' -> exists n, s_heap s' i = Some n /\ n_value n = v.
Proof.
  intros i v s u s' E. unfold store_data in E. apply bind_Ok in E as (n & s1 & E1 & E). apply bind_Ok in E as (x & s2 & E2 & E).
  apply bind_Ok in E as (y & s3 & E3 & E). apply bind_Ok in E as (n' & s4 & E4 & E).
  apply upd_Ok in E3 as (m & H1 & H2). apply load_Ok in E4 as [-> H3]. apply parent_event_Ok in E.
  exists (set_value v m). rewrite E. auto.
Qed.

Theorem replace_whole_Ok : forall i v s r s', replace_whole_text i v s = Ok r s' ->
  r = i /\ exists n, s_heap s' i = Some n /\ n_value n = v.
Proof.
  intros i v s r s' E. unfold replace_whole_text in E. apply bind_Ok in E as (a & s1 & _ & E). apply bind_Ok in E as (u & s2 & E2 & E).
  unfold set_data in E2. apply bind_Ok in E2 as (ro & s3 & _ & E2). apply bind_Ok in E2 as (x & s4 & _ & E2).
  apply store_data_Ok in E2 as (n & H & V). apply bind_Ok in E as (y & s5 & E5 & E). inversion E; subst. split; auto.
  unfold node_ref in E5. apply upd_Ok in E5 as (m & H1 & H2). exists (set_ref (u32 (n_ref m + 1)) m).
  assert (m = n) by congruence. subst. auto.
Qed.
