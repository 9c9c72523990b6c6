(** Typed attribute values keep their type and value. *)
From Coq Require Import List Arith NArith Bool Lia.
From Coq Require Import ZifyBool ZifyNat ZifyN.
From Verif Require Import Base StringModel StringSpec NameModel RingModel AttrModel AttrSpec AttrRing AttrProofs AttrRun AttrGood AttrTypeSpec.
Import ListNotations.

Definition payload (x : attr) := (a_bool x, a_short x, a_int x).
Definition next (a : nat) (o : aop) (x x' : attr) : Prop :=
  (a_type x <> UNSET -> a_type x' = a_type x) /\
  (other_than_tset a o -> payload x' = payload x) /\
  (sets_nothing a o -> a_type x' = a_type x).

Lemma next_refl : forall a o x, next a o x x.
Proof. intros; repeat split; auto. Qed.
Lemma next_same : forall a o x x', a_type x' = a_type x -> payload x' = payload x -> next a o x x'.
Proof. intros a o x x' H1 H2; repeat split; auto. Qed.

Definition stays (a : nat) (o : aop) (Q Q' : attrs) : Prop :=
  q_at Q' a = None \/ exists x x', q_at Q a = Some x /\ q_at Q' a = Some x' /\ next a o x x'.

Lemma stays_refl : forall a o Q, stays a o Q Q.
Proof. intros a o Q. destruct (q_at Q a) as [x|] eqn:E; [right; exists x, x; repeat split; auto|left; auto]. Qed.
Lemma unless_free_cases : forall x, unless_free x = None \/ unless_free x = Some x.
Proof. intros x. unfold unless_free. destruct (a_parent x); auto. destruct (a_ref x =? 0)%N; auto. Qed.
Lemma put_stays : forall a o Q b x y, q_at Q b = Some x -> (y = None \/ exists x', y = Some x' /\ (b = a -> next a o x x')) -> stays a o Q (put_at Q b y).
Proof.
  intros a o Q b x y X H. unfold stays. cbn [put_at q_at]. destruct (put_cases _ (q_at Q) b y a) as [[-> P]|[N P]]; rewrite P.
  - destruct H as [->|(x' & -> & H)]; auto. right. exists x, x'. auto.
  - apply stays_refl.
Qed.
Lemma el_stays : forall a o Q e y Q', stays a o Q Q' -> stays a o Q (put_el Q' e y).
Proof. intros. exact H. Qed.
Lemma same_at_stays : forall a o Q Q', q_at Q' a = q_at Q a -> stays a o Q Q'.
Proof. intros a o Q Q' E. destruct (q_at Q a) as [x|] eqn:X; [right; exists x, x; repeat split; auto|left; congruence]. Qed.
Lemma drop_at : forall Q e y n x b, q_at (drop Q e y n x) b = put (q_at Q) (l_attr n) (unless_free (set_aparent None x)) b.
Proof. reflexivity. Qed.
Lemma gain_at : forall Q e y a ns nm x b, q_at (gain Q e y a ns nm x) b = put (q_at Q) a (Some (set_aparent (Some e) x)) b.
Proof. reflexivity. Qed.
Lemma unless_next : forall a o x x', next a o x x' -> unless_free x' = None \/ exists x1, unless_free x' = Some x1 /\ next a o x x1.
Proof. intros a o x x' H. destruct (unless_free_cases x') as [->| ->]; eauto. Qed.

Lemma writes_next : forall a o x v x', ~ sets_nothing a o -> writes x v = inl x' -> next a o x x'.
Proof.
  intros a o x v x' NS. unfold writes. destruct (a_ro x); [discriminate|]. destruct (a_type x) eqn:T; intros E; inversion E; subst; (split; [|split]); cbn; try tauto; try congruence.
Qed.
Lemma types_next : forall a o x t f x', ~ other_than_tset a o -> (forall z, a_type (f z) = a_type z) -> types t f x = inl x' -> next a o x x'.
Proof.
  intros a o x t f x' NS HF. unfold types. destruct (a_type x) eqn:T; [intros E; inversion E; subst|..];
   try (destruct (atype_eqb _ t); intros E; inversion E; subst); (split; [|split]); try congruence; try (intros H; exfalso; apply NS; apply H); intros; rewrite HF; auto.
Qed.
Lemma retype_stays : forall a o Q b x r, q_at Q b = Some x -> (forall x', r = inl x' -> b = a -> next a o x x') -> stays a o Q (snd (retype Q b r)).
Proof.
  intros a o Q b x r X H. destruct r as [x'|e]; cbn [retype snd]; [|apply stays_refl]. eapply put_stays; eauto.
Qed.

Lemma step_stays : forall k Q o a, good k Q -> alegal Q o -> a < q_nat Q -> stays a o Q (snd (qmeans o Q)).
Proof.
  intros k Q o a GD AL LT.
  destruct o; try destruct junk as [[jb js] ji]; cbn [qmeans]; cbv zeta;
    try (apply same_at_stays; reflexivity);
    try (match goal with |- context [q_el Q ?e] => destruct (q_el Q e) as [y|] eqn:Y end; [|apply stays_refl]).
  - (* ASet *) destruct (attribute_name_ok name); cbn [negb]; [|apply stays_refl]. destruct (q_ro y); [apply stays_refl|].
    destruct (entry ns name (q_ents y)) as [n|] eqn:E.
    + destruct (q_at Q (l_attr n)) as [x|] eqn:X; [|apply stays_refl]. eapply retype_stays; eauto. intros x' W <-.
      eapply writes_next; eauto. intros [_ []].
    + apply same_at_stays. cbn [snd q_at]. rewrite gain_at. apply put_other. lia.
  - destruct (entry ns name (q_ents y)) as [n|]; [destruct (q_at Q (l_attr n))|]; apply stays_refl.
  - apply stays_refl.
  - (* ARemove *) destruct (q_ro y); [apply stays_refl|]. destruct (entry ns name (q_ents y)) as [n|]; [|apply stays_refl].
    destruct (q_at Q (l_attr n)) as [x|] eqn:X; [|apply stays_refl]. cbn [snd]. unfold drop. eapply (put_stays _ _ (put_el Q _ _)); [exact X|].
    destruct (unless_next a (ARemove e ns name) x (set_aparent None x)) as [->|(x1 & -> & H)]; eauto. apply next_same; auto.
  - apply stays_refl.
  - destruct (i <? _)%N; [|apply stays_refl]. destruct (nth_error _ _) as [n|]; [|apply stays_refl]. destruct (q_at Q (l_attr n)) as [x|] eqn:X; [|apply stays_refl].
    eapply put_stays; eauto. right. eexists. split; eauto. intros _. apply next_same; auto.
  - apply stays_refl.
  - destruct (entry ns name (q_ents y)) as [n|]; [|apply stays_refl]. destruct (q_at Q (l_attr n)) as [x|] eqn:X; [|apply stays_refl].
    eapply put_stays; eauto. right. eexists. split; eauto. intros _. apply next_same; auto.
  - (* ASetNode *) rename a0 into b. destruct (q_at Q b) as [x|] eqn:X; [|apply stays_refl].
    destruct (negb (Nat.eqb (q_doc y) (a_doc x))); [apply stays_refl|]. destruct (q_ro y) eqn:RO; [apply stays_refl|]. destruct (negb _); [apply stays_refl|].
    destruct (entry ns (a_local x) (q_ents y)) as [n|] eqn:E.
    + destruct (q_at Q (l_attr n)) as [x0|] eqn:X0; [|apply stays_refl].
      destruct (q_el (drop Q e y n (set_aref (a_ref x0 + 1) x0)) e) as [y1|] eqn:Y1; [|apply stays_refl].
      destruct (q_at (drop Q e y n (set_aref (a_ref x0 + 1) x0)) b) as [x1|] eqn:X1; [|apply stays_refl]. cbn [snd].
      unfold stays. rewrite gain_at. rewrite drop_at in X1.
      assert (UF : forall b z, put (q_at Q) (l_attr n) (unless_free (set_aparent None (set_aref (a_ref x0 + 1) x0))) b = Some z -> exists z0, q_at Q b = Some z0 /\ a_type z = a_type z0 /\ payload z = payload z0).
      { intros b' z H. destruct (put_cases _ (q_at Q) (l_attr n) (unless_free (set_aparent None (set_aref (a_ref x0 + 1) x0))) b') as [[-> P]|[N P]]; rewrite P in H; [|eauto].
        destruct (unless_free_cases (set_aparent None (set_aref (a_ref x0 + 1) x0))) as [U|U]; rewrite U in H; inversion H; subst. exists x0. auto. }
      match goal with |- context [put (q_at ?D) b ?V a] => destruct (put_cases _ (q_at D) b V a) as [[-> P]|[N P]]; rewrite P end.
      * right. destruct (UF _ _ X1) as (z0 & E0 & T & PL). exists z0. eexists. split; [auto|]. split; [reflexivity|]. apply next_same; auto.
      * rewrite drop_at. destruct (put (q_at Q) _ _ a) as [z|] eqn:Z; auto. right. destruct (UF _ _ Z) as (z0 & E0 & T & PL). exists z0, z. split; auto. split; auto. apply next_same; auto.
    + cbn [snd]. unfold gain. eapply (put_stays _ _ (put_el Q _ _)); [exact X|]. right. eexists. split; eauto. intros _. apply next_same; auto.
  - (* ARemoveNode *) rename a0 into b. destruct (q_at Q b) as [x|] eqn:X; [|apply stays_refl]. destruct (q_ro y); [apply stays_refl|].
    destruct (entry ns (qualified x) (q_ents y)) as [n|]; [|apply stays_refl]. destruct (Nat.eqb (l_attr n) b) eqn:EB; [|apply stays_refl].
    apply Nat.eqb_eq in EB. subst b. cbn [snd]. unfold drop. eapply (put_stays _ _ (put_el Q _ _)); [exact X|].
    match goal with |- unless_free ?z = _ \/ _ => destruct (unless_next a (ARemoveNode e ns (l_attr n)) x z) as [->|(x1 & -> & H)]; eauto end. apply next_same; auto.
  - (* ACreate *) apply same_at_stays. cbn [snd q_at]. apply put_other. lia.
  - destruct (q_at Q a0); apply stays_refl.
  - (* ASetValue *) destruct (q_at Q a0) as [x|] eqn:X; [|apply stays_refl]. eapply retype_stays; eauto. intros x' W ->. eapply writes_next; eauto. intros [_ H]; auto.
  - destruct (q_at Q a0); apply stays_refl.
  - destruct (q_at Q a0) as [x|] eqn:X; [|apply stays_refl]. eapply retype_stays; eauto. intros x' W ->. eapply types_next; eauto; [|destruct z; auto]. intros H; apply (H (TBool b)); auto.
  - destruct (q_at Q a0); apply stays_refl.
  - destruct (q_at Q a0) as [x|] eqn:X; [|apply stays_refl]. eapply retype_stays; eauto. intros x' W ->. eapply types_next; eauto; [|destruct z; auto]. intros H; apply (H (TShort v)); auto.
  - destruct (q_at Q a0); apply stays_refl.
  - destruct (q_at Q a0) as [x|] eqn:X; [|apply stays_refl]. eapply retype_stays; eauto. intros x' W ->. eapply types_next; eauto; [|destruct z; auto]. intros H; apply (H (TInt v)); auto.
  - destruct (q_at Q a0) as [x|] eqn:X; [|apply stays_refl]. eapply put_stays; eauto. right. eexists. split; eauto. intros _. apply next_same; auto.
  - destruct (q_at Q a0) as [x|] eqn:X; [|apply stays_refl]. cbn [snd]. eapply put_stays; eauto.
    match goal with |- unless_free ?z = _ \/ _ => destruct (unless_next a (AUnref a0) x z) as [->|(x1 & -> & H)]; eauto end. apply next_same; auto.
  - destruct (q_at Q a0); apply stays_refl.
Qed.
Lemma step_nat : forall Q o, q_nat Q <= q_nat (snd (qmeans o Q)).
Proof.
  intros Q o. destruct o; try destruct junk as [[? ?] ?]; cbn [qmeans]; cbv zeta; auto;
    repeat match goal with |- context [match ?t with _ => _ end] => destruct t end; cbn; auto;
    unfold retype; repeat match goal with |- context [match ?t with _ => _ end] => destruct t end; cbn; auto.
Qed.

(** ** Along further calls *)
Definition has_type (t : atype) (Q : attrs) (a : nat) : Prop := a < q_nat Q /\ forall x, q_at Q a = Some x -> a_type x = t.
Definition has_load (p : bool * N * N) (Q : attrs) (a : nat) : Prop := a < q_nat Q /\ forall x, q_at Q a = Some x -> payload x = p.

Lemma further_le : forall P k s Q k' s' Q', further P k s Q k' s' Q' -> k <= k'.
Proof. intros P k s Q k' s' Q' F. induction F; lia. Qed.
Lemma further_areach : forall P k s Q k' s' Q', further P k s Q k' s' Q' -> areach k s Q -> areach k' s' Q'.
Proof. intros P k s Q k' s' Q' F. induction F as [|k s Q o r s1 k' s' Q' PO AL [E|[e E]] F IH]; intros A; auto; apply IH; [eapply ar_ok|eapply ar_exc]; eauto. Qed.

Section Along.
  Context (P : aop -> Prop) (a : nat).
  Lemma along : forall (J : attrs -> Prop),
    (forall k Q o, good k Q -> P o -> alegal Q o -> J Q -> J (snd (qmeans o Q))) ->
    forall k s Q k' s' Q', further P k s Q k' s' Q' -> areach k s Q -> (N.of_nat k' < 4294967280)%N -> J Q -> J Q'.
  Proof.
    intros J ST k s Q k' s' Q' F. induction F as [|k s Q o r s1 k' s' Q' PO AL E F IH]; intros A B JQ; auto.
    pose proof (further_le _ _ _ _ _ _ _ F) as LE. apply IH; auto.
    - destruct E as [E|[e E]]; [eapply ar_ok|eapply ar_exc]; eauto.
    - destruct (areach_sim k s Q A) as [GD _]; [lia|]. apply (ST k); auto.
  Qed.
End Along.

Lemma type_step : forall t a k Q o, t <> UNSET -> good k Q -> alegal Q o -> has_type t Q a -> has_type t (snd (qmeans o Q)) a.
Proof.
  intros t a k Q o T GD AL [LT H]. pose proof (step_nat Q o). split; [lia|]. intros x' X'.
  destruct (step_stays k Q o a GD AL LT) as [N|(x & x1 & E & E1 & (N1 & _))]; [congruence|]. rewrite X' in E1; inversion E1; subst x1.
  rewrite N1; auto. rewrite (H x E); auto.
Qed.
Lemma untouched_step : forall a k Q o, good k Q -> sets_nothing a o -> alegal Q o -> has_type UNSET Q a -> has_type UNSET (snd (qmeans o Q)) a.
Proof.
  intros a k Q o GD S AL [LT H]. pose proof (step_nat Q o). split; [lia|]. intros x' X'.
  destruct (step_stays k Q o a GD AL LT) as [N|(x & x1 & E & E1 & (_ & _ & N1))]; [congruence|]. rewrite X' in E1; inversion E1; subst x1.
  rewrite N1; auto.
Qed.
Lemma load_step : forall p a k Q o, good k Q -> other_than_tset a o -> alegal Q o -> has_load p Q a -> has_load p (snd (qmeans o Q)) a.
Proof.
  intros p a k Q o GD S AL [LT H]. pose proof (step_nat Q o). split; [lia|]. intros x' X'.
  destruct (step_stays k Q o a GD AL LT) as [N|(x & x1 & E & E1 & (_ & N1 & _))]; [congruence|]. rewrite X' in E1; inversion E1; subst x1.
  rewrite N1; auto.
Qed.

(** ** Answers *)
Definition type_of (c : kind) : atype := match c with KBool => BOOL | KShort => SHORT | KInt => INTEGER end.
Definition load_of (c : kind) (p : bool * N * N) : tval := match p with (b, h, i) => match c with KBool => TBool b | KShort => TShort h | KInt => TInt i end end.
Lemma kind_dec : forall c c' : kind, {c = c'} + {c <> c'}.
Proof. decide equality. Qed.

Lemma legal_owned : forall Q a o, owned Q a -> (exists c, o = tget c a) \/ (exists t, o = tset a t) -> alegal Q o.
Proof. intros Q a o OW [[[| |] ->]|[[?|?|?] ->]]; exact OW. Qed.

Lemma tget_ans : forall k s Q a x c, areach k s Q -> (N.of_nat k < 4294967290)%N -> owned Q a -> q_at Q a = Some x ->
  answer (aexec (tget c a) s) = Some (if atype_eqb (a_type x) (type_of c) then told (load_of c (payload x)) else mismatch).
Proof.
  intros k s Q a x c A B OW X. rewrite (attributes_refine k s Q (tget c a) A B) by (eapply legal_owned; eauto).
  destruct c; cbn [tget qmeans]; rewrite X; reflexivity.
Qed.
Lemma tset_ans : forall k s Q a x t, areach k s Q -> (N.of_nat k < 4294967290)%N -> owned Q a -> q_at Q a = Some x ->
  answer (aexec (tset a t) s) = Some (if atype_eqb (a_type x) UNSET || atype_eqb (a_type x) (type_of (kind_of t)) then RDone else mismatch).
Proof.
  intros k s Q a x t A B OW X. rewrite (attributes_refine k s Q (tset a t) A B) by (eapply legal_owned; eauto).
  destruct t; cbn [tset qmeans kind_of type_of]; rewrite X; unfold retype, types; destruct (a_type x); reflexivity.
Qed.
Lemma tset_means : forall Q a x t, q_at Q a = Some x ->
  let Q' := snd (qmeans (tset a t) Q) in
  if atype_eqb (a_type x) UNSET || atype_eqb (a_type x) (type_of (kind_of t))
  then exists x', Q' = put_at Q a (Some x') /\ a_ref x' = a_ref x /\ a_type x' = type_of (kind_of t) /\ load_of (kind_of t) (payload x') = t
  else Q' = Q.
Proof.
  intros Q a x t X. destruct t; cbn [tset qmeans kind_of type_of]; rewrite X; unfold retype, types; destruct (a_type x) eqn:T; cbn; auto; eexists; repeat split; cbn; auto.
Qed.
Lemma type_of_inj : forall c c', atype_eqb (type_of c) (type_of c') = true -> c = c'.
Proof. intros [] [] H; auto; discriminate. Qed.
Lemma type_of_refl : forall c, atype_eqb (type_of c) (type_of c) = true.
Proof. intros []; auto. Qed.
Lemma done_ok : forall o s, answer (aexec o s) = Some RDone -> exists s', aexec o s = Ok RDone s'.
Proof. intros o s A. destruct (aexec o s) as [r s'|e s'|b]; cbn in A; inversion A; subst; eauto. Qed.

(** A successful typed set. *)
Lemma tset_done : forall k s Q a t s1, areach k s Q -> (N.of_nat k < 4294967280)%N -> owned Q a -> aexec (tset a t) s = Ok RDone s1 ->
  let Q1 := snd (qmeans (tset a t) Q) in
  areach (S k) s1 Q1 /\ owned Q1 a /\ has_type (type_of (kind_of t)) Q1 a /\ exists p, load_of (kind_of t) p = t /\ has_load p Q1 a.
Proof.
  intros k s Q a t s1 A B OW E Q1. destruct OW as (x & X & R). assert (OW : owned Q a) by (exists x; auto).
  assert (AR : areach (S k) s1 Q1) by (eapply ar_ok; eauto; eapply legal_owned; eauto).
  split; auto. pose proof (tset_ans k s Q a x t A ltac:(lia) OW X) as AN. rewrite E in AN. cbn [answer] in AN. pose proof (tset_means Q a x t X) as M. cbv zeta in M. fold Q1 in M.
  destruct (atype_eqb (a_type x) UNSET || _); [|discriminate]. destruct M as (x' & -> & RF & TY & LD).
  destruct (areach_sim k s Q A) as [GD _]; [lia|]. pose proof (gd_ab _ _ GD a x X) as LT.
  split; [exists x'; cbn [put_at q_at]; rewrite put_same; split; auto; lia|].
  split; [split; auto; cbn [put_at q_at]; rewrite put_same; intros z Z; inversion Z; subst; auto|].
  exists (payload x'). split; auto. split; auto. cbn [put_at q_at]. rewrite put_same. intros z Z; inversion Z; subst; auto.
Qed.

Lemma typed_get : forall k s Q a t s1, areach k s Q -> owned Q a -> aexec (tset a t) s = Ok RDone s1 ->
  forall k' s' Q', further (other_than_tset a) (S k) s1 (snd (qmeans (tset a t) Q)) k' s' Q' -> (N.of_nat k' < 4294967280)%N -> owned Q' a ->
  forall c, answer (aexec (tget c a) s') = Some (if kind_dec c (kind_of t) then told t else mismatch).
Proof.
  intros k s Q a t s1 A OW E k' s' Q' F B OW' c. pose proof (further_le _ _ _ _ _ _ _ F) as LE.
  destruct (tset_done k s Q a t s1 A ltac:(lia) OW E) as (AR & _ & HT & p & LP & HL).
  assert (AR' : areach k' s' Q') by (eapply further_areach; eauto).
  assert (HT' : has_type (type_of (kind_of t)) Q' a).
  { refine (along _ (fun Q => has_type (type_of (kind_of t)) Q a) _ _ _ _ _ _ _ F AR B HT). intros. eapply type_step; eauto. destruct t; discriminate. }
  assert (HL' : has_load p Q' a).
  { refine (along _ (fun Q => has_load p Q a) _ _ _ _ _ _ _ F AR B HL). intros. eapply load_step; eauto. }
  destruct OW' as (x & X & R). rewrite (tget_ans k' s' Q' a x c AR' ltac:(lia)); [|exists x; auto|auto].
  rewrite (proj2 HT' x X), (proj2 HL' x X). destruct (kind_dec c (kind_of t)) as [->|N].
  - rewrite type_of_refl, LP. auto.
  - destruct (atype_eqb _ _) eqn:EQ; auto. apply type_of_inj in EQ. congruence.
Qed.
Lemma typed_fixed : forall k s Q a t s1, areach k s Q -> owned Q a -> aexec (tset a t) s = Ok RDone s1 ->
  forall k' s' Q', further (fun _ => True) (S k) s1 (snd (qmeans (tset a t) Q)) k' s' Q' -> (N.of_nat k' < 4294967280)%N -> owned Q' a ->
  forall t', answer (aexec (tset a t') s') = Some (if kind_dec (kind_of t') (kind_of t) then RDone else mismatch).
Proof.
  intros k s Q a t s1 A OW E k' s' Q' F B OW' t'. pose proof (further_le _ _ _ _ _ _ _ F) as LE.
  destruct (tset_done k s Q a t s1 A ltac:(lia) OW E) as (AR & _ & HT & _).
  assert (AR' : areach k' s' Q') by (eapply further_areach; eauto).
  assert (HT' : has_type (type_of (kind_of t)) Q' a).
  { refine (along _ (fun Q => has_type (type_of (kind_of t)) Q a) _ _ _ _ _ _ _ F AR B HT). intros. eapply type_step; eauto. destruct t; discriminate. }
  destruct OW' as (x & X & R). rewrite (tset_ans k' s' Q' a x t' AR' ltac:(lia)); [|exists x; auto|auto].
  rewrite (proj2 HT' x X). destruct (kind_dec (kind_of t') (kind_of t)) as [->|N].
  - rewrite type_of_refl, orb_true_r. auto.
  - replace (atype_eqb (type_of (kind_of t)) UNSET) with false by (destruct t; auto). cbn [orb].
    destruct (atype_eqb _ _) eqn:EQ; auto. apply type_of_inj in EQ. congruence.
Qed.
Lemma typed_first : forall k s Q j d l ns pf r s1, areach k s Q -> aexec (ACreate j d l ns pf) s = Ok (RAttr (Some r)) s1 ->
  forall k' s' Q', further (sets_nothing r) (S k) s1 (snd (qmeans (ACreate j d l ns pf) Q)) k' s' Q' -> (N.of_nat k' < 4294967280)%N -> owned Q' r ->
  (forall c, answer (aexec (tget c r) s') = Some mismatch) /\ (forall t, answer (aexec (tset r t) s') = Some RDone).
Proof.
  intros k s Q j d l ns pf r s1 A E k' s' Q' F B OW'. pose proof (further_le _ _ _ _ _ _ _ F) as LE.
  assert (AR : areach (S k) s1 (snd (qmeans (ACreate j d l ns pf) Q))) by (eapply ar_ok; eauto; exact I).
  pose proof (attributes_refine k s Q (ACreate j d l ns pf) A ltac:(lia) I) as AN. rewrite E in AN. cbn [answer] in AN. destruct j as [[jb js] ji]. cbn [qmeans fst] in AN. inversion AN; subst r.
  assert (HT : has_type UNSET (snd (qmeans (ACreate (jb, js, ji) d l ns pf) Q)) (q_nat Q)).
  { split; [cbn; lia|]. cbn [qmeans snd q_at]. rewrite put_same. intros x X; inversion X; auto. }
  assert (AR' : areach k' s' Q') by (eapply further_areach; eauto).
  assert (HT' : has_type UNSET Q' (q_nat Q)).
  { refine (along _ (fun Q0 => has_type UNSET Q0 (q_nat Q)) _ _ _ _ _ _ _ F AR B HT). intros. eapply untouched_step; eauto. }
  destruct OW' as (x & X & R). assert (OW' : owned Q' (q_nat Q)) by (exists x; auto). pose proof (proj2 HT' x X) as T. split.
  - intros c. rewrite (tget_ans k' s' Q' _ x c AR' ltac:(lia) OW' X), T. destruct c; auto.
  - intros t. rewrite (tset_ans k' s' Q' _ x t AR' ltac:(lia) OW' X), T. auto.
Qed.
(** A failing typed set changes no answer. *)
Lemma typed_fails : forall k s Q a t e s1, areach k s Q -> (N.of_nat k < 4294967280)%N -> owned Q a -> aexec (tset a t) s = Exc e s1 ->
  e = ATTR_WRONG_TYPE_ERR /\ forall o, alegal Q o -> answer (aexec o s1) = answer (aexec o s).
Proof.
  intros k s Q a t e s1 A B OW E. destruct OW as (x & X & R). assert (OW : owned Q a) by (exists x; auto).
  pose proof (tset_ans k s Q a x t A ltac:(lia) OW X) as AN. rewrite E in AN. cbn [answer] in AN. pose proof (tset_means Q a x t X) as M. cbv zeta in M.
  destruct (atype_eqb (a_type x) UNSET || _); [discriminate|]. inversion AN. split; auto. intros o AL.
  assert (AR : areach (S k) s1 Q) by (rewrite <- M; eapply ar_exc; eauto; eapply legal_owned; eauto).
  rewrite (attributes_refine (S k) s1 Q o AR ltac:(lia) AL), (attributes_refine k s Q o A ltac:(lia) AL). auto.
Qed.
