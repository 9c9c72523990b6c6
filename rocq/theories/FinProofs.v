(** Destroying HTML documents does to the nodes what destroying documents does. *)
From Coq Require Import List Arith NArith Bool Lia.
From Verif Require Import Base HeapModel HeapSpec HeapInv HeapExec HeapFrame HeapOps HeapUnref HistModel HistProofs FinModel FinSpec.
Import ListNotations.
Local Open Scope dom_scope.

Lemma onward_refl : forall x, onward x x. Proof. intros x. split; auto. split; auto. intros. lia. Qed.
Lemma onward_trans : forall x y z, onward x y -> onward y z -> onward x z.
Proof. intros x y z (A & B & C) (D & E & F). split; auto. split; [congruence|]. intros c. specialize (C c). specialize (F c). lia. Qed.
Lemma onward_quiet : forall x y, onward x y -> quiet x -> quiet y.
Proof. intros x y (_ & B & _) Q d. rewrite B. apply Q. Qed.

(** The nodes see no difference, unless a string is used after it was freed. *)
Definition alike {A} (m : M st A) (hm : M hst A) : Prop := forall s x,
  match hm (s, x) with
  | Ok a (s', x') => m s = Ok a s' /\ onward x x'
  | Exc e (s', x') => m s = Exc e s' /\ onward x x'
  | Bad b => m s = Bad b \/ (b = UseAfterFree /\ ~ quiet x)
  end.
Lemma alike_ret : forall A (a : A), alike (ret a) (ret a).
Proof. intros A a s x. cbn. split; auto. apply onward_refl. Qed.
Lemma alike_lift : forall A (m : M st A), alike m (lift m).
Proof. intros A m s x. unfold lift. cbn [fst snd]. destruct (m s); auto using onward_refl. Qed.
Lemma alike_stuck : forall A b, alike (A := A) (stuck b) (hstuck b).
Proof. intros A b s x. left. reflexivity. Qed.
Lemma alike_bind : forall A B (m : M st A) hm (k : A -> M st B) hk, alike m hm -> (forall a, alike (k a) (hk a)) -> alike (bind m k) (bind hm hk).
Proof.
  intros A B m hm k hk H K s x. specialize (H s x). unfold bind. destruct (hm (s, x)) as [a [s' x']|e [s' x']|b].
  - destruct H as (H & O). rewrite H. specialize (K a s' x'). destruct (hk a (s', x')) as [b [t y]|e [t y]|b].
    + destruct K. split; auto. eapply onward_trans; eauto.
    + destruct K. split; auto. eapply onward_trans; eauto.
    + destruct K as [K|(K1 & K2)]; [left; exact K|right]. split; auto. intros Q. apply K2. eapply onward_quiet; eauto.
  - destruct H as (H & O). rewrite H. auto.
  - destruct H as [H|H]; [rewrite H; auto|auto].
Qed.
Lemma strs_ok : forall l s x, match strs_unref l (s, x) with
  | Ok _ (s', x') => s' = s /\ onward x x' /\ x_tables x' = x_tables x
  | Exc _ _ => False
  | Bad b => b = UseAfterFree /\ l <> []
  end.
Proof.
  induction l as [|c l IH]; intros s x; cbn [strs_unref]. { cbn. split; auto. split; auto. apply onward_refl. }
  unfold bind at 1, str_unref. cbn [snd fst]. destruct (N.eqb_spec (x_count x c) 0) as [Z|Z]. { split; [reflexivity|discriminate]. }
  match goal with |- context [strs_unref l (s, ?y)] => specialize (IH s y); assert (O : onward x y) end.
  { split; auto. split; auto. intros j. cbn [x_count]. destruct (Nat.eqb_spec j c) as [->|]; lia. }
  destruct (strs_unref l (s, _)) as [u [s' x']|e [s' x']|b]; [|contradiction|].
  - destruct IH as (A & B & C). split; auto. split; [eapply onward_trans; eauto|rewrite C; reflexivity].
  - destruct IH as (A & B). split; auto. discriminate.
Qed.
Lemma fin_tables : forall d s x, match html_finalise d (s, x) with
  | Ok _ (s', x') => s' = s /\ onward x x' /\ x_tables x' d = false
  | Exc _ _ => False
  | Bad b => b = UseAfterFree /\ ~ quiet x
  end.
Proof.
  intros d s x. unfold html_finalise, bind. cbn [snd]. pose proof (strs_ok (x_strings x d) s x) as K.
  destruct (strs_unref (x_strings x d) (s, x)) as [u [s' x']|e [s' x']|b]; [|contradiction|].
  - destruct K as (-> & O & T). cbn [fst snd x_tables x_strings x_count]. split; auto. split; [|rewrite Nat.eqb_refl; reflexivity].
    destruct O as (O1 & O2 & O3). split; [|split]; auto. cbn [x_tables]. intros j. destruct (Nat.eqb j d); [discriminate|auto].
  - destruct K as (-> & K). split; auto.
Qed.
Lemma alike_fin : forall d, alike (ret tt) (html_finalise d).
Proof.
  intros d s x. pose proof (fin_tables d s x) as K. destruct (html_finalise d (s, x)) as [[] [s' x']|e [s' x']|b]; [|contradiction|auto].
  destruct K as (-> & O & _). split; auto.
Qed.
Lemma alike_when : forall b m hm, alike m hm -> alike (when b m) (hwhen b hm).
Proof. intros [] m hm H; auto. apply alike_ret. Qed.
Lemma alike_pre : forall A (m : M st A) hf hm, alike (ret tt) hf -> alike m hm -> alike m (hf ;;; hm).
Proof. intros A m hf hm H K s x. exact (alike_bind _ _ (ret tt) hf (fun _ => m) (fun _ => hm) H (fun _ => K) s x). Qed.

Section Step.
  Variable D : id -> M st unit.
  Variable HD : id -> M hst unit.
  Hypothesis AL : forall i, alike (D i) (HD i).
  Lemma alike_try : forall i, alike (try_destroy_with D i) (htry_destroy_with HD i).
  Proof.
    intros i. apply alike_bind; [apply alike_lift|]. intros n. destruct (n_parent n); [apply alike_ret|]. destruct (N.eqb (n_ref n) 0); [apply AL|].
    destruct (n_pending n); [apply alike_ret|]. apply alike_bind; [apply alike_lift|]. intros d. apply alike_lift.
  Qed.
  Lemma alike_children : forall f p, alike (fin_children f D p) (hfin_children f HD p).
  Proof.
    induction f as [|f IH]; intros [c|]; cbn [fin_children hfin_children]; try apply alike_ret; [apply alike_stuck|].
    apply alike_bind; [apply alike_lift|]. intros n. apply alike_bind; [apply alike_lift|]. intros _. apply alike_bind; [apply alike_try|]. intros _. apply IH.
  Qed.
  Lemma alike_finalise : forall f i, alike (finalise_with f D i) (hfinalise_with f HD i).
  Proof.
    intros f i. apply alike_bind; [apply alike_lift|]. intros n. apply alike_bind; [apply alike_children|]. intros _. apply alike_bind; [apply alike_lift|]. intros _.
    apply alike_bind; [apply alike_lift|]. intros m. destruct (n_pending m); [|apply alike_ret]. apply alike_bind; [apply alike_lift|]. intros d.
    apply alike_bind; [apply alike_lift|]. intros _. apply alike_when. apply alike_bind; [apply alike_lift|]. intros nd.
    destruct (negb (N.eqb (n_ref nd) 0) || negb (is_none (n_parent nd))); [apply alike_ret|apply AL].
  Qed.
  Lemma alike_attrs : forall l, alike (attrs_destroy D l) (hattrs_destroy HD l).
  Proof.
    induction l as [|a l IH]; cbn [attrs_destroy hattrs_destroy]; [apply alike_ret|]. apply alike_bind; [apply alike_lift|]. intros na.
    apply alike_bind; [apply alike_lift|]. intros d. apply alike_bind; [apply alike_lift|]. intros _. apply alike_bind; [apply alike_lift|]. intros _.
    apply alike_bind; [apply alike_lift|]. intros _. apply alike_bind; [apply alike_try|]. intros _. exact IH.
  Qed.
End Step.
Lemma alike_destroy : forall f i, alike (destroy f i) (hdestroy f i).
Proof.
  induction f as [|f IH]; intros i; cbn [destroy hdestroy]; [apply alike_stuck|]. apply alike_bind; [apply alike_lift|]. intros n.
  assert (E : alike (finalise_with f (destroy f) i ;;; free i) (hfinalise_with f (hdestroy f) i ;;; lift (free i))).
  { apply alike_bind; [apply alike_finalise; exact IH|]. intros _. apply alike_lift. }
  destruct (n_type n); try exact E.
  - apply alike_bind; [apply alike_attrs; exact IH|]. intros _. apply alike_bind; [apply alike_lift|]. intros _. exact E.
  - apply alike_pre; [apply alike_fin|]. apply alike_bind; [apply alike_finalise; exact IH|]. intros _. apply alike_bind; [apply alike_lift|]. intros n'.
    destruct (n_pend n'); [apply alike_lift|apply alike_ret].
Qed.
Lemma alike_unref : forall i, alike (node_unref i) (html_unref i).
Proof.
  intros i. apply alike_bind; [apply alike_lift|]. intros _. apply alike_bind; [apply alike_lift|]. intros n. apply alike_when.
  intros s x. exact (alike_try _ _ (alike_destroy (fuel_of s)) i s x).
Qed.

(** ** The tables are gone with the last reference *)
Lemma alike_onward : forall A (m : M st A) hm s x a s' x', alike m hm -> hm (s, x) = Ok a (s', x') -> onward x x'.
Proof. intros A m hm s x a s' x' H E. specialize (H s x). rewrite E in H. apply H. Qed.
Lemma strs_less : forall l s x s' x' c, strs_unref l (s, x) = Ok tt (s', x') -> In c l -> (x_count x' c < x_count x c)%N.
Proof.
  induction l as [|a l IH]; intros s x s' x' c E I; [destruct I|]. cbn [strs_unref] in E. unfold bind at 1, str_unref in E. cbn [snd fst] in E.
  destruct (N.eqb_spec (x_count x a) 0) as [Z|Z]; [discriminate|].
  match type of E with strs_unref l (s, ?y) = _ => set (y0 := y) in *; pose proof (strs_ok l s y0) as K; assert (O : forall j, (x_count y0 j <= x_count x j)%N) end.
  { intros j. cbn [y0 x_count]. destruct (Nat.eqb_spec j a) as [->|]; lia. }
  rewrite E in K. destruct K as (_ & (_ & _ & K) & _). destruct (Nat.eq_dec a c) as [->|N].
  - specialize (K c). unfold y0 in K. cbn [x_count] in K. rewrite Nat.eqb_refl in K. lia.
  - destruct I as [I|I]; [congruence|]. pose proof (IH _ _ _ _ _ E I) as Q. specialize (O c). lia.
Qed.
Lemma fin_less : forall d s x s' x' c, html_finalise d (s, x) = Ok tt (s', x') -> In c (x_strings x d) -> (x_count x' c < x_count x c)%N.
Proof.
  intros d s x s' x' c E I. unfold html_finalise, bind in E. cbn [snd] in E. destruct (strs_unref (x_strings x d) (s, x)) as [[] [s1 x1]|e s1|b] eqn:K; try discriminate.
  injection E as <- <-. cbn [fst snd x_count]. eapply strs_less; eauto.
Qed.
Lemma last_unref : forall s x d n s' x', s_heap s d = Some n -> n_type n = DOCUMENT -> n_parent n = None -> n_ref n = 1%N -> html_unref d (s, x) = Ok tt (s', x') ->
  x_tables x' d = false /\ forall c, In c (x_strings x d) -> (x_count x' c < x_count x c)%N.
Proof.
  intros s x d n s' x' H T P R E. unfold html_unref in E. unfold bind at 1 in E. unfold lift at 1 in E. cbn [fst snd] in E. unfold upd at 1 in E. rewrite H in E.
  set (s1 := mkSt (hmod (s_heap s) d (fun n => set_ref (u32 (n_ref n + (two32 - 1))) n)) (s_nxt s) (s_log s)) in *.
  assert (H1 : s_heap s1 d = Some (set_ref 0%N n)). { cbn [s1 s_heap]. unfold hmod. rewrite Nat.eqb_refl, H. cbn [option_map]. rewrite R. reflexivity. }
  assert (L : lift (load d) (s1, x) = Ok (set_ref 0%N n) (s1, x)) by (unfold lift; cbn [fst snd]; unfold load; rewrite H1; reflexivity).
  unfold bind at 1 in E. rewrite L in E. change (N.eqb (n_ref (set_ref 0%N n)) 0) with true in E. cbn [hwhen] in E. unfold htry_destroy in E. cbn [fst] in E.
  unfold htry_destroy_with in E. unfold bind at 1 in E. rewrite L in E. change (n_parent (set_ref 0%N n)) with (n_parent n) in E. rewrite P in E.
  change (N.eqb (n_ref (set_ref 0%N n)) 0) with true in E. cbv iota in E.
  assert (F : exists f, fuel_of s1 = S f) by (unfold fuel_of; exists (2 * s_nxt s1 + 7); lia). destruct F as (f & F). rewrite F in E. cbn [hdestroy] in E.
  unfold bind at 1 in E. rewrite L in E. change (n_type (set_ref 0%N n)) with (n_type n) in E. rewrite T in E. unfold bind at 1 in E.
  pose proof (fin_tables d s1 x) as K. destruct (html_finalise d (s1, x)) as [[] [s2 x2]|e [s2 x2]|b] eqn:E2; try discriminate.
  destruct K as (-> & O1 & O2).
  assert (O : onward x2 x').
  { refine (alike_onward _ (finalise_with f (destroy f) d ;;; n' <- load d ;; match n_pend n' with [] => free d | _ => ret tt end) _ _ _ _ _ _ _ E).
    apply alike_bind; [apply alike_finalise; apply alike_destroy|]. intros _. apply alike_bind; [apply alike_lift|]. intros n'.
    destruct (n_pend n'); [apply alike_lift|apply alike_ret]. }
  split.
  - destruct (x_tables x' d) eqn:X; auto. apply O in X. congruence.
  - intros c I. pose proof (fin_less _ _ _ _ _ _ E2 I) as Q. destruct O as (_ & _ & O). specialize (O c). lia.
Qed.

(** ** A document that holds a freed string cannot be freed *)
Definition doomed (x : ext) (d : id) : Prop := exists c, In c (x_strings x d) /\ x_count x c = 0%N.
Lemma onward_doomed : forall x y d, onward x y -> doomed x d -> doomed y d.
Proof. intros x y d (_ & B & C) (c & I & Z). exists c. rewrite B. split; auto. specialize (C c). lia. Qed.
Lemma fin_doomed : forall d s x, doomed x d -> exists b, html_finalise d (s, x) = Bad b.
Proof.
  intros d s x (c & I & Z). destruct (html_finalise d (s, x)) as [[] [s' x']|e y|b] eqn:E; [|pose proof (fin_tables d s x) as K; rewrite E in K; contradiction|eauto].
  pose proof (fin_less _ _ _ _ _ _ E I). lia.
Qed.
Definition keeps {A} (d : id) (hm : M hst A) : Prop := forall s x a s' x', doomed x d -> type_of (s_heap s) d = Some DOCUMENT -> hm (s, x) = Ok a (s', x') ->
  doomed x' d /\ type_of (s_heap s') d = Some DOCUMENT.
Lemma keeps_ret : forall A d (a : A), keeps d (ret a).
Proof. intros A d a s x b s' x' D T E. injection E as _ <- <-. auto. Qed.
Lemma keeps_stuck : forall A d b, keeps (A := A) d (hstuck b).
Proof. intros A d b s x a s' x' D T E. discriminate. Qed.
Lemma keeps_bind : forall A B d (m : M hst A) (k : A -> M hst B), keeps d m -> (forall a, keeps d (k a)) -> keeps d (bind m k).
Proof.
  intros A B d m k H K s x a s' x' D T E. unfold bind in E. destruct (m (s, x)) as [a1 [s1 x1]|e [s1 x1]|b] eqn:E1; try discriminate.
  destruct (H _ _ _ _ _ D T E1) as (D1 & T1). exact (K _ _ _ _ _ _ D1 T1 E).
Qed.
Lemma keeps_lift : forall A d (m : M st A), (forall s a s', m s = Ok a s' -> type_of (s_heap s) d = Some DOCUMENT -> type_of (s_heap s') d = Some DOCUMENT) -> keeps d (lift m).
Proof. intros A d m H s x a s' x' D T E. unfold lift in E. cbn [fst snd] in E. destruct (m s) eqn:M; try discriminate. injection E as <- <- <-. split; eauto. Qed.
Lemma keeps_load : forall d i, keeps d (lift (load i)).
Proof. intros d i. apply keeps_lift. intros s a s' E. unfold load in E. destruct (s_heap s i); [|discriminate]. injection E as _ <-. auto. Qed.
Lemma keeps_deref : forall d o, keeps d (lift (deref o)).
Proof. intros d [i|]; apply keeps_lift; intros s a s' E; [injection E as _ <-; auto|discriminate]. Qed.
Lemma type_upd : forall d i f s s' u, (forall n, n_type (f n) = n_type n) -> upd i f s = Ok u s' -> type_of (s_heap s) d = Some DOCUMENT -> type_of (s_heap s') d = Some DOCUMENT.
Proof.
  intros d i f s s' u F E T. unfold upd in E. destruct (s_heap s i) as [n|] eqn:H; [|discriminate]. injection E as _ <-. cbn [s_heap]. unfold type_of, hmod in *.
  destruct (Nat.eqb_spec d i) as [->|]; auto. rewrite H in *. cbn [option_map] in *. rewrite F. exact T.
Qed.
Lemma keeps_upd : forall d i f, (forall n, n_type (f n) = n_type n) -> keeps d (lift (upd i f)).
Proof. intros d i f F. apply keeps_lift. intros s a s' E. eapply type_upd; eauto. Qed.
Lemma lift_bind : forall A B (m : M st A) (k : A -> M st B) sx, lift (bind m k) sx = bind (lift m) (fun a => lift (k a)) sx.
Proof. intros A B m k [s x]. unfold lift, bind. cbn [fst snd]. destruct (m s); reflexivity. Qed.
Lemma keeps_ext : forall A d (m m' : M hst A), (forall sx, m sx = m' sx) -> keeps d m' -> keeps d m.
Proof. intros A d m m' E K s x a s' x' D T X. rewrite E in X. eauto. Qed.
Lemma keeps_pend : forall d e i f g, (forall n, n_type (f n) = n_type n) -> (forall n, n_type (g n) = n_type n) -> keeps d (lift (upd e f ;;; upd i g)).
Proof. intros d e i f g F G. eapply keeps_ext; [apply lift_bind|]. apply keeps_bind; [apply keeps_upd; auto|]. intros _. apply keeps_upd; auto. Qed.
Section Keep.
  Variable d : id.
  Variable HD : id -> M hst unit.
  Hypothesis KD : forall i, keeps d (HD i).
  Lemma keeps_try : forall i, keeps d (htry_destroy_with HD i).
  Proof.
    intros i. apply keeps_bind; [apply keeps_load|]. intros n. destruct (n_parent n); [apply keeps_ret|]. destruct (N.eqb (n_ref n) 0); [apply KD|].
    destruct (n_pending n); [apply keeps_ret|]. apply keeps_bind; [apply keeps_deref|]. intros e. apply keeps_pend; reflexivity.
  Qed.
  Lemma keeps_children : forall f p, keeps d (hfin_children f HD p).
  Proof.
    induction f as [|f IH]; intros [c|]; cbn [hfin_children]; try apply keeps_ret; [apply keeps_stuck|].
    apply keeps_bind; [apply keeps_load|]. intros n. apply keeps_bind; [apply keeps_upd; reflexivity|]. intros _. apply keeps_bind; [apply keeps_try|]. intros _. apply IH.
  Qed.
  Lemma keeps_finalise : forall f i, keeps d (hfinalise_with f HD i).
  Proof.
    intros f i. apply keeps_bind; [apply keeps_load|]. intros n. apply keeps_bind; [apply keeps_children|]. intros _. apply keeps_bind; [apply keeps_upd; reflexivity|]. intros _.
    apply keeps_bind; [apply keeps_load|]. intros m. destruct (n_pending m); [|apply keeps_ret]. apply keeps_bind; [apply keeps_deref|]. intros e.
    apply keeps_bind; [apply keeps_pend; reflexivity|]. intros _. destruct (negb (ntype_eqb (n_type m) DOCUMENT)); [|apply keeps_ret].
    apply keeps_bind; [apply keeps_load|]. intros nd. destruct (negb (N.eqb (n_ref nd) 0) || negb (is_none (n_parent nd))); [apply keeps_ret|apply KD].
  Qed.
  Lemma keeps_attrs : forall l, keeps d (hattrs_destroy HD l).
  Proof.
    induction l as [|a l IH]; cbn [hattrs_destroy]; [apply keeps_ret|]. apply keeps_bind; [apply keeps_load|]. intros na.
    apply keeps_bind; [apply keeps_deref|]. intros e. apply keeps_bind; [apply keeps_load|]. intros _. apply keeps_bind.
    { assert (R : keeps d (lift (ret tt))) by (apply keeps_lift; intros s u s' E; injection E as _ <-; auto).
      destruct (n_ns na); [exact R|]. destruct (n_name na) as [nm|]; [|exact R]. destruct (bytes_eqb nm class_string); [|exact R].
      eapply keeps_ext; [apply lift_bind|]. apply keeps_bind; [apply keeps_deref|]. intros e'. apply keeps_upd; reflexivity. }
    intros _. apply keeps_bind; [apply keeps_upd; reflexivity|]. intros _. apply keeps_bind; [apply keeps_try|]. intros _. exact IH.
  Qed.
End Keep.
Lemma free_other : forall d i, d <> i -> keeps d (lift (free i)).
Proof.
  intros d i N. apply keeps_lift. intros s u s' E T. unfold free in E. destruct (s_heap s i); [|discriminate]. injection E as _ <-. cbn [s_heap]. unfold type_of, hupd in *.
  destruct (Nat.eqb_spec d i); [contradiction|exact T].
Qed.
Lemma keeps_destroy : forall d f i, keeps d (hdestroy f i).
Proof.
  intros d f. induction f as [|f IH]; intros i; cbn [hdestroy]; [apply keeps_stuck|]. intros s x a s' x' D T E. unfold bind at 1 in E.
  destruct (lift (load i) (s, x)) as [n [s1 x1]|e y|b] eqn:L; try discriminate. destruct (keeps_load d i s x n s1 x1 D T L) as (D1 & T1).
  assert (N : n_type n <> DOCUMENT -> d <> i).
  { intros NT ->. unfold lift in L. cbn [fst snd] in L. unfold load in L. destruct (s_heap s i) as [m|] eqn:H; [|discriminate]. injection L as -> _ _.
    apply NT. unfold type_of in T. rewrite H in T. cbn in T. congruence. }
  destruct (Nat.eq_dec d i) as [->|ND].
  - destruct (n_type n) eqn:TN; try (exfalso; apply N; [discriminate|reflexivity]). unfold bind at 1 in E. destruct (fin_doomed i s1 x1 D1) as (b & B). rewrite B in E. discriminate.
  - assert (G : keeps d (hfinalise_with f (hdestroy f) i ;;; lift (free i))).
    { apply keeps_bind; [apply keeps_finalise; exact IH|]. intros _. apply free_other; exact ND. }
    destruct (n_type n); try exact (G _ _ _ _ _ D1 T1 E).
    + refine (keeps_bind _ _ _ _ _ (keeps_attrs d _ IH _) _ _ _ _ _ _ D1 T1 E). intros _. apply keeps_bind; [apply keeps_upd; reflexivity|]. intros _. exact G.
    + refine (keeps_bind _ _ _ _ _ _ _ _ _ _ _ _ D1 T1 E).
      * intros s2 x2 u s3 x3 D2 T2 E2. pose proof (fin_tables i s2 x2) as K. rewrite E2 in K. destruct K as (-> & O & _). split; auto. eapply onward_doomed; eauto.
      * intros _. apply keeps_bind; [apply keeps_finalise; exact IH|]. intros _. apply keeps_bind; [apply keeps_load|]. intros n'.
        destruct (n_pend n'); [apply free_other; exact ND|apply keeps_ret].
Qed.
Lemma keeps_unref : forall d i, keeps d (html_unref i).
Proof.
  intros d i. apply keeps_bind; [apply keeps_upd; reflexivity|]. intros _. apply keeps_bind; [apply keeps_load|]. intros n. destruct (N.eqb (n_ref n) 0); [|apply keeps_ret].
  intros s x. exact (keeps_try d _ (keeps_destroy d (fuel_of s)) i s x).
Qed.
