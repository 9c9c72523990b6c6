(** The properties in every reachable state. *)
From Coq Require Import List Arith NArith ZArith Bool Lia ZifyBool ZifyNat ZifyN.
From Verif Require Import Base StringModel StringSpec StringProofs NameModel AttrModel AttrSpec AttrRing AttrProofs AttrRun AttrGood NumModel NumSpec NumProofs.
Import ListNotations.
Local Open Scope N_scope.

Lemma bytes_eqb_iff : forall a b, bytes_eqb a b = true <-> a = b.
Proof. intros a b. destruct (bytes_eqb_spec a b); split; congruence. Qed.
Lemma node_ans : forall e n s r, answer (aexec (ANode e None n) s) = Some (RAttr r) -> exists s', get_attr_node e None n s = Ok r s' /\ aexec (ANode e None n) s = Ok (RAttr r) s'.
Proof. intros e n s r. cbn [aexec]. unfold bind. destruct (get_attr_node e None n s) as [a s'|x s'|b]; cbn; intros H; inversion H; subst; eauto. Qed.
Lemma unref_ans : forall a s, answer (aexec (AUnref a) s) = Some RDone -> exists s', attr_unref a s = Ok tt s' /\ aexec (AUnref a) s = Ok RDone s'.
Proof. intros a s. cbn [aexec]. unfold bind. destruct (attr_unref a s) as [[] s'|x s'|b]; cbn; intros H; inversion H; eauto. Qed.
Lemma remove_ans : forall e a s b, answer (aexec (ARemoveNode e None a) s) = Some (RAttr (Some b)) -> exists s', remove_attr_node e None a s = Ok b s' /\ aexec (ARemoveNode e None a) s = Ok (RAttr (Some b)) s'.
Proof. intros e a s b. cbn [aexec]. unfold bind. destruct (remove_attr_node e None a s) as [r s'|x s'|w]; cbn; intros H; inversion H; subst; eauto. Qed.
Lemma remove_exc : forall e a s x, answer (aexec (ARemoveNode e None a) s) = Some (RErr x) -> exists s', remove_attr_node e None a s = Exc x s' /\ aexec (ARemoveNode e None a) s = Exc x s'.
Proof. intros e a s x. cbn [aexec]. unfold bind. destruct (remove_attr_node e None a s) as [r s'|y s'|w]; cbn; intros H; inversion H; subst; eauto. Qed.
Lemma put_ans : forall e a s b, answer (aexec (ASetNode e None a) s) = Some (RAttr b) -> exists s', set_attr_node e None a s = Ok b s' /\ aexec (ASetNode e None a) s = Ok (RAttr b) s'.
Proof. intros e a s b. cbn [aexec]. unfold bind. destruct (set_attr_node e None a s) as [r s'|x s'|w]; cbn; intros H; inversion H; subst; eauto. Qed.
Lemma put_exc : forall e a s x, answer (aexec (ASetNode e None a) s) = Some (RErr x) -> exists s', set_attr_node e None a s = Exc x s' /\ aexec (ASetNode e None a) s = Exc x s'.
Proof. intros e a s x. cbn [aexec]. unfold bind. destruct (set_attr_node e None a s) as [r s'|y s'|w]; cbn; intros H; inversion H; subst; eauto. Qed.

Definition like (Q Q' : attrs) : Prop := q_nel Q' = q_nel Q /\ q_nat Q' = q_nat Q /\ (forall e, q_el Q' e = q_el Q e) /\ (forall a, q_at Q' a = q_at Q a).
Lemma like_answers : forall k s Q K s' Q', areach k s Q -> areach K s' Q' -> (k <= K)%nat -> N.of_nat K < 4294967290 -> like Q Q' -> answers_as Q s s'.
Proof.
  intros k s Q K s' Q' R R' LE B (N1 & N2 & E & A) o AL. rewrite (attributes_refine k s Q o R ltac:(lia) AL).
  destruct (areach_sim k s Q R ltac:(lia)) as (GD & _). destruct (areach_sim K s' Q' R' B) as (_ & L & SM).
  assert (SM' : sim s' Q L) by (eapply sim_ext; eauto; intros; symmetry; auto).
  destruct (run_ok K s' Q L SM' (good_more k K Q GD LE) B o AL) as (s1 & L1 & S1 & [F|(ex & ER & F)]); rewrite F; cbn [answer]; congruence.
Qed.

Lemma wanted_name : forall n m, wanted None n m = true -> l_name m = n.
Proof. intros n m H. cbn in H. apply bytes_eqb_iff in H. congruence. Qed.

Lemma ref_back : forall x, set_aref (a_ref (set_aref (a_ref x + 1) x) - 1) (set_aref (a_ref x + 1) x) = x.
Proof. intros x. replace (a_ref (set_aref (a_ref x + 1) x) - 1) with (a_ref x) by (cbn [set_aref a_ref]; lia). destruct x. reflexivity. Qed.

(** ** Looking up an attribute and giving it back *)
Section Get.
  Variables (k : nat) (s : ast) (Q : attrs) (e : nat) (n : bytes) (y : qel).
  Hypotheses (R : areach k s Q) (B : N.of_nat k < 4294967280) (Y : q_el Q e = Some y).

  Lemma GD : good k Q.
  Proof. apply (areach_sim k s Q R). lia. Qed.
  Lemma el_here : an_element Q e.
  Proof. unfold an_element. congruence. Qed.

  Lemma absent_ok : entry None n (q_ents y) = None -> exists s', get_attr_node e None n s = Ok None s' /\ areach (S k) s' Q.
  Proof.
    intros E. pose proof (attributes_refine k s Q (ANode e None n) R ltac:(lia) el_here) as A. cbn [qmeans] in A. rewrite Y, E in A.
    destruct (node_ans _ _ _ _ A) as (s' & G & X). exists s'. split; auto.
    replace Q with (snd (qmeans (ANode e None n) Q)) by (cbn [qmeans]; rewrite Y, E; auto). eapply ar_ok; eauto. exact el_here.
  Qed.

  Variables (m : lnode) (x : attr).
  Hypotheses (E : entry None n (q_ents y) = Some m) (X : q_at Q (l_attr m) = Some x).
  Definition lent : attrs := put_at Q (l_attr m) (Some (set_aref (a_ref x + 1) x)).
  Lemma lent_ok : exists s', get_attr_node e None n s = Ok (Some (l_attr m)) s' /\ areach (S k) s' lent /\ aload (l_attr m) s' = Ok (set_aref (a_ref x + 1) x) s'.
  Proof.
    pose proof (attributes_refine k s Q (ANode e None n) R ltac:(lia) el_here) as A. cbn [qmeans] in A. rewrite Y, E, X in A.
    destruct (node_ans _ _ _ _ A) as (s' & G & Z). exists s'. split; auto.
    assert (AR : areach (S k) s' lent).
    { replace lent with (snd (qmeans (ANode e None n) Q)) by (cbn [qmeans]; rewrite Y, E, X; auto). eapply ar_ok; eauto. exact el_here. }
    split; auto. destruct (areach_sim (S k) s' lent AR ltac:(lia)) as (_ & L & SM). unfold aload. rewrite (sm_at _ _ _ SM). unfold lent, put_at; cbn [q_at]. rewrite put_same. auto.
  Qed.
  Lemma entry_parent : a_parent x = Some e /\ a_local x = n.
  Proof.
    destruct (gd_ent _ _ GD e y m Y (entry_in _ _ _ _ E)) as (z & Z & P & L). rewrite X in Z. inversion Z; subst z. split; auto.
    apply find_some in E as [_ W]. rewrite L. eapply wanted_name; eauto.
  Qed.
  (** A held attribute of an element is let go. *)
  Lemma release : forall K s1, areach K s1 lent -> N.of_nat K < 4294967289 ->
    exists s', attr_unref (l_attr m) s1 = Ok tt s' /\ exists Q', areach (S K) s' Q' /\ like Q Q'.
  Proof.
    intros K s1 R1 B1. assert (OW : owned lent (l_attr m)) by (eexists; split; [unfold lent, put_at; cbn [q_at]; apply put_same|cbn; lia]).
    pose proof (attributes_refine K s1 lent (AUnref (l_attr m)) R1 ltac:(lia) OW) as A. unfold lent, put_at in A; cbn [qmeans q_at] in A. rewrite put_same in A. cbn [fst] in A.
    destruct (unref_ans _ _ A) as (s' & U & Z). exists s'. split; auto. exists (snd (qmeans (AUnref (l_attr m)) lent)). split; [exact (ar_ok _ _ _ (AUnref (l_attr m)) _ _ R1 OW Z)|].
    unfold lent, put_at; cbn [qmeans q_at]. rewrite put_same. cbn [snd]. unfold like. cbn [put_at q_at q_el q_nel q_nat]. repeat split; auto. intros b.
    destruct (put_cases _ (put (q_at Q) (l_attr m) (Some (set_aref (a_ref x + 1) x))) (l_attr m) (unless_free (set_aref (a_ref (set_aref (a_ref x + 1) x) - 1) (set_aref (a_ref x + 1) x))) b) as [[-> P]|[N P]]; rewrite P; [|apply put_other; auto].
    rewrite X. unfold unless_free. rewrite ref_back. rewrite (proj1 entry_parent). auto.
  Qed.
End Get.

Lemma entry_attr : forall k s Q e n y m, areach k s Q -> N.of_nat k < 4294967280 -> q_el Q e = Some y -> entry None n (q_ents y) = Some m -> exists x, q_at Q (l_attr m) = Some x.
Proof.
  intros k s Q e n y m R B Y E. destruct (areach_sim k s Q R ltac:(lia)) as (GD & _). destruct (gd_ent _ _ GD e y m Y (entry_in _ _ _ _ E)) as (x & X & _). eauto.
Qed.
Lemma like_refl : forall Q, like Q Q.
Proof. intros Q. repeat split. Qed.

(** ** Reading *)
Lemma kids_hd : forall k s Q a x, areach k s Q -> N.of_nat k < 4294967280 -> q_at Q a = Some x -> forall r, kids_text None (a_kids (set_aref r x)) = hd None (a_kids x).
Proof.
  intros k s Q a x R B X r. destruct (areach_sim k s Q R ltac:(lia)) as (GD & _). cbn [set_aref a_kids]. destruct (gd_ok _ _ GD a x X) as [->|(v & -> & _)]; reflexivity.
Qed.

Lemma get_text : forall k s Q e n, areach k s Q -> N.of_nat k < 4294967280 -> an_element Q e ->
  match written Q e n with
  | Some (Some t) => exists s', get_int32_property e n s = Ok (to_int32 (strtol0 (up_to_nul t))) s' /\ answers_as Q s s'
  | Some None => get_int32_property e n s = Bad NullDeref
  | None => exists s', get_int32_property e n s = Ok (-1)%Z s' /\ answers_as Q s s'
  end.
Proof.
  intros k s Q e n R B EL. unfold written, an_element in *. destruct (q_el Q e) as [y|] eqn:Y; [|congruence].
  destruct (entry None n (q_ents y)) as [m|] eqn:E.
  - destruct (entry_attr k s Q e n y m R B Y E) as (x & X). rewrite X. destruct (lent_ok k s Q e n y R B Y m x E X) as (s1 & G & R1 & AL).
    unfold get_int32_property. step G. cbv iota. unfold attr_text. rewrite bind_assoc. step AL. rewrite bind_ret, (kids_hd k s Q _ x R B X).
    destruct (hd None (a_kids x)) as [t|]; [|reflexivity].
    destruct (release k s Q e n y R B Y m x E X (S k) s1 R1 ltac:(lia)) as (s2 & U & Q2 & R2 & LK). step U. exists s2. split; [reflexivity|].
    eapply (like_answers k s Q (S (S k))); eauto; lia.
  - destruct (absent_ok k s Q e n y R B Y E) as (s1 & G & R1). unfold get_int32_property. step G. cbv iota. exists s1. split; [reflexivity|].
    eapply (like_answers k s Q (S k)); eauto; try lia. apply like_refl.
Qed.

Lemma int_read : forall k s Q e n bl sg b ds v z rest, areach k s Q -> N.of_nat k < 4294967280 -> written Q e n = Some (Some (bl ++ sg ++ ds ++ rest)) ->
  Forall blank bl -> sign sg (Z.of_N v) z -> numeral b ds v -> ends b ds rest ->
  exists r s', get_int32_property e n s = Ok r s' /\ int32 r /\ same_bits r (as_long z) /\ answers_as Q s s'.
Proof.
  intros k s Q e n bl sg b ds v z rest R B W F SG NU EN. assert (EL : an_element Q e) by (unfold written, an_element in *; destruct (q_el Q e); congruence).
  pose proof (get_text k s Q e n R B EL) as G. rewrite W in G. destruct G as (s' & G & A). rewrite (strtol_text bl sg b ds v z rest F SG NU EN) in G.
  destruct (int32_ok (as_long z)). exists (to_int32 (as_long z)), s'. auto.
Qed.
Lemma int_absent : forall k s Q e n, areach k s Q -> N.of_nat k < 4294967280 -> an_element Q e -> written Q e n = None ->
  exists s', get_int32_property e n s = Ok (-1)%Z s' /\ answers_as Q s s'.
Proof. intros k s Q e n R B EL W. pose proof (get_text k s Q e n R B EL) as G. rewrite W in G. exact G. Qed.
Lemma int_unset : forall k s Q e n, areach k s Q -> N.of_nat k < 4294967280 -> written Q e n = Some None -> get_int32_property e n s = Bad NullDeref.
Proof.
  intros k s Q e n R B W. assert (EL : an_element Q e) by (unfold written, an_element in *; destruct (q_el Q e); congruence).
  pose proof (get_text k s Q e n R B EL) as G. rewrite W in G. exact G.
Qed.

(** ** Writing *)
Lemma set_ans : forall j e n v s s', set_attr j e None n v s = Ok tt s' -> aexec (ASet j e None n v) s = Ok RDone s'.
Proof. intros j e n v s s' H. cbn [aexec]. unfold bind. rewrite H. auto. Qed.

Lemma entry_app_new : forall n l m, entry None n l = None -> wanted None n m = true -> entry None n (l ++ [m]) = Some m.
Proof. intros n l m. unfold entry. induction l as [|a l IH]; cbn [find app]; intros E W; [rewrite W; auto|]. destruct (wanted None n a); [discriminate|auto]. Qed.

Lemma set_written : forall k s Q j e n v s1, areach k s Q -> N.of_nat k < 4294967280 -> an_element Q e -> a_name n -> set_attr j e None n (Some v) s = Ok tt s1 ->
  exists Q1, areach (S k) s1 Q1 /\ an_element Q1 e /\ written Q1 e n = Some (Some v) /\ answer (aexec (AGet e None n) s1) = Some (RVal (Some v)).
Proof.
  intros k s Q j e n v s1 R B EL NM H. apply set_ans in H. pose proof (attributes_refine k s Q (ASet j e None n (Some v)) R ltac:(lia) (conj EL NM)) as A. rewrite H in A. cbn [answer] in A.
  assert (R1 : areach (S k) s1 (snd (qmeans (ASet j e None n (Some v)) Q))) by (eapply ar_ok; eauto; split; auto).
  exists (snd (qmeans (ASet j e None n (Some v)) Q)). split; auto.
  assert (WR : an_element (snd (qmeans (ASet j e None n (Some v)) Q)) e /\ written (snd (qmeans (ASet j e None n (Some v)) Q)) e n = Some (Some v) /\
     forall z, z = fst (qmeans (AGet e None n) (snd (qmeans (ASet j e None n (Some v)) Q))) -> z = RVal (Some v)).
  { clear R1. destruct j as [[b sh] i]. cbn [qmeans] in *. unfold an_element, written in *. destruct (q_el Q e) as [y|] eqn:Y; [|congruence].
    destruct (negb (attribute_name_ok n)); [discriminate|]. destruct (q_ro y); [discriminate|].
    destruct (entry None n (q_ents y)) as [m|] eqn:E.
    - destruct (entry_attr k s Q e n y m R B Y E) as (x & X). rewrite X in *. destruct (writes x (Some v)) as [x'|ex] eqn:W; cbn [retype] in *; [|discriminate].
      apply writes_ok in W. subst x'. cbn [snd put_at q_el q_at]. rewrite Y, E, put_same. split; [discriminate|]. split; [reflexivity|]. intros z ->. unfold value. cbn. rewrite app_nil_r. auto.
    - cbn [snd gain put_at put_el q_el q_at]. rewrite put_same. cbn [q_ents]. rewrite (entry_app_new n _ (mkLnode (q_nat Q) n None) E) by (cbn; apply bytes_eqb_iff; auto). cbn [l_attr].
      rewrite put_same. split; [discriminate|]. split; [reflexivity|]. intros z ->. unfold value. cbn. rewrite app_nil_r. auto. }
  destruct WR as (E1 & W1 & G1). split; auto. split; auto. rewrite (attributes_refine (S k) s1 _ (AGet e None n) R1 ltac:(lia) E1). f_equal. apply G1. auto.
Qed.

Lemma int_text : forall k s Q j e n v s1, areach k s Q -> N.of_nat k < 4294967280 -> an_element Q e -> a_name n -> set_int32_property j e n v s = Ok tt s1 ->
  exists ds, answer (aexec (AGet e None n) s1) = Some (RVal (Some ds)) /\ decimal ds (Z.to_N (v mod 2 ^ 32)).
Proof.
  intros k s Q j e n v s1 R B EL NM H. destruct (set_written k s Q j e n _ s1 R B EL NM H) as (Q1 & _ & _ & _ & G). exists (print_u32 (Z.to_N (v mod 4294967296))). split; auto.
  apply print_u32_ok. pose proof (Z.mod_pos_bound v 4294967296 ltac:(lia)). lia.
Qed.
Lemma int_back : forall k s Q j e n v s1, areach k s Q -> N.of_nat k < 4294967270 -> an_element Q e -> a_name n -> int32 v -> set_int32_property j e n v s = Ok tt s1 ->
  exists s2, get_int32_property e n s1 = Ok v s2.
Proof.
  intros k s Q j e n v s1 R B EL NM I H. destruct (set_written k s Q j e n _ s1 R ltac:(lia) EL NM H) as (Q1 & R1 & EL1 & W & _).
  pose proof (get_text (S k) s1 Q1 e n R1 ltac:(lia) EL1) as G. rewrite W in G. destruct G as (s2 & G & _). exists s2. rewrite G. f_equal.
  pose proof (Z.mod_pos_bound v 4294967296 ltac:(lia)) as MB.
  destruct (decimal_numeral _ _ (print_u32_ok (Z.to_N (v mod 4294967296)) ltac:(lia))) as (b & NU & ST).
  assert (EN : ends b (print_u32 (Z.to_N (v mod 4294967296))) []) by (split; [exact ST|intros _; split; discriminate]).
  pose proof (strtol_text [] [] b _ _ (Z.of_N (Z.to_N (v mod 4294967296))) [] (Forall_nil _) (s_none _) NU EN) as T.
  cbn [app] in T. rewrite app_nil_r in T. rewrite T, Z2N.id by lia. apply int32_same. auto.
Qed.
(** The number is written without a sign. *)
Lemma int_negative : forall k s Q j e n v s1, areach k s Q -> N.of_nat k < 4294967280 -> an_element Q e -> a_name n -> int32 v -> (v < 0)%Z -> set_int32_property j e n v s = Ok tt s1 ->
  exists ds, answer (aexec (AGet e None n) s1) = Some (RVal (Some ds)) /\ decimal ds (Z.to_N (v + 2 ^ 32)) /\ hd_error ds <> Some 45.
Proof.
  intros k s Q j e n v s1 R B EL NM I NG H. destruct (int_text k s Q j e n v s1 R B EL NM H) as (ds & G & D). exists ds. split; auto.
  unfold int32 in I. change (2 ^ 31)%Z with 2147483648%Z in I. change (2 ^ 32)%Z with 4294967296%Z in *.
  replace (v mod 4294967296)%Z with (v + 4294967296)%Z in D by (symmetry; rewrite <- (Z.mod_add v 1 4294967296), Z.mul_1_l by lia; apply Z.mod_small; lia).
  split; auto. destruct D as (D & NE & _). destruct ds as [|c ds]; [congruence|]. cbn [hd_error]. intros Z. inversion Z; subst c. destruct (digits_head _ _ _ _ D) as (d & G1 & _). apply is_digit_pos in G1. lia.
Qed.
