(** Proofs about character classes, name validation and qualified names. *)
From Coq Require Import List Arith NArith ZArith Bool Lia ZifyBool ZifyN ZifyNat.
From Verif Require Import Base Utf8Model StringModel StringSpec StringProofs CharModel NameModel NameSpec.
Import ListNotations.
Local Open Scope N_scope.

Ltac Zify.zify_post_hook ::= Z.div_mod_to_equations.

(** ** Binary search *)

Fixpoint sortedb (l : list (N * N)) : bool :=
  match l with
  | [] => true
  | (a, b) :: r =>
      (a <=? b) && match r with [] => true | (c, _) :: _ => b <? c end && sortedb r
  end.

Lemma sorted_head a b l : sortedb ((a, b) :: l) = true ->
  a <= b /\ Forall (fun r => b < fst r) l /\ sortedb l = true.
Proof.
  revert a b. induction l as [|[c d] l IH]; intros a b H.
  - cbn in H. repeat split; [lia|constructor].
  - change ((a <=? b) && (b <? c) && sortedb ((c, d) :: l) = true) in H.
    apply andb_true_iff in H. destruct H as [H1 H2]. apply andb_true_iff in H1. destruct H1 as [H1 H3].
    destruct (IH c d H2) as (L & F & _). repeat split; auto; [lia|].
    constructor; [cbn; lia|]. eapply Forall_impl; [|exact F]. cbn. intros r Hr. lia.
Qed.

Lemma sorted_nth l : sortedb l = true -> forall i j x y,
  nth_error l i = Some x -> nth_error l j = Some y -> (i < j)%nat -> snd x < fst y.
Proof.
  induction l as [|[a b] l IH]; intros S i j x y Hi Hj L; [destruct i; discriminate|].
  destruct (sorted_head a b l S) as (_ & F & S').
  destruct j as [|j]; [lia|]. cbn in Hj. destruct i as [|i].
  - injection Hi as <-. rewrite Forall_forall in F. apply F. eapply nth_error_In; eauto.
  - cbn in Hi. eapply IH; eauto. lia.
Qed.

Lemma sorted_nth_self l : sortedb l = true -> forall i x, nth_error l i = Some x -> fst x <= snd x.
Proof.
  induction l as [|[a b] l IH]; intros S i x Hi; [destruct i; discriminate|].
  destruct (sorted_head a b l S) as (L & _ & S').
  destruct i as [|i]; [injection Hi as <-; exact L|]. eapply IH; eauto.
Qed.

Lemma listed_nth ch l : listed ch l <-> exists i x, nth_error l i = Some x /\ fst x <= ch <= snd x.
Proof.
  split.
  - intros (a & b & I & H). apply In_nth_error in I. destruct I as [i I]. exists i, (a, b). auto.
  - intros (i & [a b] & I & H). exists a, b. split; [eapply nth_error_In; eauto|exact H].
Qed.

Lemma binary_search_ok range ch : sortedb range = true ->
  forall fuel left right,
  (0 <= left)%Z -> (right < Z.of_nat (length range))%Z ->
  (right - left + 1 < Z.of_nat fuel)%Z -> (1 <= Z.of_nat fuel)%Z ->
  (forall i x, nth_error range i = Some x -> (Z.of_nat i < left)%Z -> snd x < ch) ->
  (forall i x, nth_error range i = Some x -> (right < Z.of_nat i)%Z -> ch < fst x) ->
  exists b, binary_search fuel ch left right range = Some b /\ (b = true <-> listed ch range).
Proof.
  intros S fuel. induction fuel as [|f IH]; intros left right H1 H2 H3 H4 HL HR; [lia|].
  cbn [binary_search]. destruct (Z.ltb_spec right left).
  { exists false. split; [reflexivity|]. split; [discriminate|]. rewrite listed_nth.
    intros (i & x & I & C). exfalso.
    destruct (Z.lt_ge_cases (Z.of_nat i) left) as [L|G].
    - specialize (HL i x I L). lia.
    - assert (right < Z.of_nat i)%Z as G2 by lia. specialize (HR i x I G2). lia. }
  set (mid := ((left + right) / 2)%Z) in *.
  assert (M : (left <= mid <= right)%Z) by (unfold mid; lia).
  destruct (Z.ltb_spec mid 0); [lia|].
  destruct (nth_error range (Z.to_nat mid)) as [[s e]|] eqn:E.
  2:{ apply nth_error_None in E. lia. }
  destruct ((s <=? ch) && (ch <=? e)) eqn:In1.
  { exists true. split; [reflexivity|]. split; [|reflexivity]. intros _. rewrite listed_nth.
    exists (Z.to_nat mid), (s, e). cbn. split; [exact E|lia]. }
  pose proof (sorted_nth_self range S _ _ E) as Le. cbn in Le.
  destruct (N.ltb_spec ch s).
  - apply IH; try lia; auto.
    intros i x I L. destruct (Nat.eq_dec i (Z.to_nat mid)) as [->|Ne].
    + rewrite E in I. injection I as <-. cbn. lia.
    + assert (Z.to_nat mid < i)%nat as Lt by lia.
      pose proof (sorted_nth range S _ _ _ _ E I Lt) as K. cbn in K. lia.
  - destruct (N.ltb_spec e ch); [|lia].
    apply IH; try lia; auto.
    intros i x I L. destruct (Nat.eq_dec i (Z.to_nat mid)) as [->|Ne].
    + rewrite E in I. injection I as <-. cbn. lia.
    + assert (i < Z.to_nat mid)%nat as Lt by lia.
      pose proof (sorted_nth range S _ _ _ _ I E Lt) as K. cbn in K. lia.
Qed.

Lemma in_group_ok range ch : sortedb range = true -> range <> [] ->
  exists b, in_group ch range = Some b /\ (b = true <-> listed ch range).
Proof.
  intros S NE. unfold in_group.
  destruct (nth_error range 0) as [[s0 e0]|] eqn:E0.
  2:{ apply nth_error_None in E0. destruct range; [congruence|cbn in E0; lia]. }
  assert (Lp : (0 < length range)%nat) by (destruct range; [congruence|cbn; lia]).
  destruct (nth_error range (length range - 1)) as [[s1 e1]|] eqn:E1.
  2:{ apply nth_error_None in E1. lia. }
  destruct ((ch <? s0) || (e1 <? ch)) eqn:Out.
  - exists false. split; [reflexivity|]. split; [discriminate|]. rewrite listed_nth.
    intros (i & x & I & C). exfalso.
    assert (i < length range)%nat as Li by (apply nth_error_Some; congruence).
    apply orb_true_iff in Out. destruct Out as [O|O].
    + destruct (Nat.eq_dec i 0) as [->|Ni].
      * rewrite E0 in I. injection I as <-. cbn in C. lia.
      * assert (0 < i)%nat as Lt by lia. pose proof (sorted_nth range S _ _ _ _ E0 I Lt) as K.
        pose proof (sorted_nth_self range S _ _ E0) as K2. cbn in K, K2. lia.
    + destruct (Nat.eq_dec i (length range - 1)) as [->|Ni].
      * rewrite E1 in I. injection I as <-. cbn in C. lia.
      * assert (i < length range - 1)%nat as Lt by lia.
        pose proof (sorted_nth range S _ _ _ _ I E1 Lt) as K.
        pose proof (sorted_nth_self range S _ _ E1) as K2. cbn in K, K2. lia.
  - apply binary_search_ok; auto; try lia.
    intros i x I L. assert (i < length range)%nat by (apply nth_error_Some; congruence). lia.
Qed.

Lemma tables_sorted :
  Forall (fun t => sortedb t = true /\ t <> [])
    [base_char_range; combining_char_range; digit_char_range; extender_range; ideographic_range].
Proof. repeat constructor; discriminate. Qed.

Lemma table_ok t ch :
  In t [base_char_range; combining_char_range; digit_char_range; extender_range; ideographic_range] ->
  exists b, in_group ch t = Some b /\ (b = true <-> listed ch t).
Proof.
  intros I. pose proof tables_sorted as F. rewrite Forall_forall in F. destruct (F t I).
  apply in_group_ok; assumption.
Qed.

Lemma yes_ok t ch :
  In t [base_char_range; combining_char_range; digit_char_range; extender_range; ideographic_range] ->
  yes (in_group ch t) = true <-> listed ch t.
Proof. intros I. destruct (table_ok t ch I) as (b & -> & H). exact H. Qed.

(** ** The classes *)

Definition listedb (ch : N) (l : list (N * N)) : bool :=
  existsb (fun r => between (fst r) ch (snd r)) l.

Lemma listedb_ok ch l : listedb ch l = true <-> listed ch l.
Proof.
  unfold listedb. rewrite existsb_exists. split.
  - intros ([a b] & I & H). exists a, b. unfold between in H. cbn in H. split; [exact I|lia].
  - intros (a & b & I & H). exists (a, b). split; [exact I|]. unfold between. cbn. lia.
Qed.

Definition withinb (small large : list (N * N)) : bool :=
  forallb (fun r => existsb (fun R => (fst R <=? fst r) && (snd r <=? snd R)) large) small.

Lemma withinb_ok small large ch : withinb small large = true -> listed ch small -> listed ch large.
Proof.
  unfold withinb. rewrite forallb_forall. intros H (a & b & I & C).
  specialize (H (a, b) I). apply existsb_exists in H. destruct H as ([x y] & I2 & H). cbn in H.
  exists x, y. split; [exact I2|lia].
Qed.

Lemma listed_app ch a b : listed ch (a ++ b) <-> listed ch a \/ listed ch b.
Proof.
  split.
  - intros (x & y & I & C). apply in_app_or in I. destruct I; [left|right]; exists x, y; auto.
  - intros [(x & y & I & C)|(x & y & I & C)]; exists x, y; (split; [apply in_or_app; auto|exact C]).
Qed.

Lemma is_letter_iff ch : is_letter ch = true <-> listed ch base_char_range \/ listed ch ideographic_range.
Proof.
  unfold is_letter. rewrite orb_true_iff. unfold is_base_char, is_ideographic.
  rewrite !yes_ok by (cbn; auto 10). reflexivity.
Qed.

Lemma letters_start ch : is_letter ch = true -> NameStartChar ch.
Proof.
  rewrite is_letter_iff. intros [H|H]; (eapply withinb_ok; [|exact H]; vm_compute; reflexivity).
Qed.

Lemma single ch x : (ch =? x) = between x ch x.
Proof. unfold between. lia. Qed.

Lemma is_first_char_iff ch : is_first_char ch = true <-> NameStartChar ch.
Proof.
  unfold is_first_char. match goal with |- (if ?A then _ else _) = _ <-> _ => set (a := A) end.
  assert (E : a = true <-> NameStartChar ch).
  { unfold a, NameStartChar. rewrite <- listedb_ok. unfold listedb, name_start_ranges. cbn [existsb fst snd].
    rewrite !single, !orb_true_iff. intuition congruence. }
  clearbody a. destruct a; [tauto|].
  destruct (is_letter ch) eqn:L; cbn [orb].
  - pose proof (letters_start ch L). tauto.
  - destruct ((ch =? 95) || (ch =? 58)) eqn:F; [|exact E].
    split; [intros _|reflexivity]. apply listedb_ok.
    apply orb_true_iff in F. destruct F as [F|F]; apply N.eqb_eq in F; subst ch; reflexivity.
Qed.

Lemma name_char_listed ch : NameChar ch <-> listed ch (name_start_ranges ++ name_more_ranges).
Proof. rewrite listed_app. reflexivity. Qed.

Lemma is_name_char_iff ch : is_name_char ch = true <-> NameChar ch.
Proof.
  unfold is_name_char. match goal with |- (if ?A then _ else _) = _ <-> _ => set (a := A) end.
  assert (E : a = true <-> NameChar ch).
  { unfold a, NameChar. rewrite <- !listedb_ok. unfold listedb, name_start_ranges, name_more_ranges.
    cbn [existsb fst snd]. rewrite !single, !orb_true_iff. intuition congruence. }
  clearbody a. destruct a; [tauto|].
  assert (W : forall t, In t [base_char_range; combining_char_range; digit_char_range; extender_range; ideographic_range] ->
    withinb t (name_start_ranges ++ name_more_ranges) = true -> yes (in_group ch t) = true -> NameChar ch).
  { intros t I Wt Y. apply yes_ok in Y; [|exact I]. apply name_char_listed. eapply withinb_ok; eauto. }
  unfold is_letter, is_base_char, is_ideographic, is_digit, is_combining_char, is_extender.
  destruct (yes (in_group ch base_char_range)) eqn:Y1; cbn [orb].
  { pose proof (W base_char_range ltac:(cbn; auto 10) ltac:(vm_compute; reflexivity) Y1). tauto. }
  destruct (yes (in_group ch ideographic_range)) eqn:Y2.
  { pose proof (W ideographic_range ltac:(cbn; auto 10) ltac:(vm_compute; reflexivity) Y2). tauto. }
  destruct (yes (in_group ch digit_char_range)) eqn:Y3.
  { pose proof (W digit_char_range ltac:(cbn; auto 10) ltac:(vm_compute; reflexivity) Y3). tauto. }
  destruct (yes (in_group ch combining_char_range)) eqn:Y4.
  { pose proof (W combining_char_range ltac:(cbn; auto 10) ltac:(vm_compute; reflexivity) Y4). tauto. }
  destruct (yes (in_group ch extender_range)) eqn:Y5.
  { pose proof (W extender_range ltac:(cbn; auto 10) ltac:(vm_compute; reflexivity) Y5). tauto. }
  exact E.
Qed.

Lemma NameChar_character ch : NameChar ch -> character ch.
Proof.
  rewrite name_char_listed. intros H.
  assert (W : listed ch [(0, 55295); (57344, 65533); (65536, 1114111)]).
  { eapply withinb_ok; [|exact H]. vm_compute. reflexivity. }
  destruct W as (a & b & [I|[I|[I|[]]]] & C); injection I as <- <-; unfold character; lia.
Qed.

Lemma NameStart_NameChar ch : NameStartChar ch -> NameChar ch.
Proof. left. assumption. Qed.

(** ** Decoding arbitrary bytes *)

Lemma continuations_no_oob n s v : (n <= length s)%nat -> continuations n s v <> UOob.
Proof.
  revert s v. induction n as [|n IH]; intros [|t s] v L; cbn in *; try discriminate; try lia.
  destruct (contb t); [apply IH; lia|discriminate].
Qed.

Lemma continuations_shape n s v c m : continuations n s v = UOk c m ->
  exists w r, s = w ++ r /\ length w = n /\ Forall (fun x => 128 <= x < 192) w /\
    c = fold_left (fun acc t => acc * 64 + t mod 64) w v.
Proof.
  revert s v. induction n as [|n IH]; intros s v H.
  - assert (E : continuations 0 s v = UOk v 0) by (destruct s; reflexivity).
    rewrite E in H. injection H as <- _. exists [], s. repeat split. constructor.
  - destruct s as [|t s]; [discriminate|]. cbn [continuations] in H.
    destruct (contb t) eqn:C; [|discriminate].
    destruct (IH s _ H) as (w & r & -> & L & F & ->). exists (t :: w), r. repeat split.
    + cbn. congruence.
    + constructor; [unfold contb in C; lia|exact F].
Qed.

Lemma decode_no_oob s : utf8_to_ucs4 s (length s) <> UOob.
Proof.
  unfold utf8_to_ucs4. destruct (Nat.eqb_spec (length s) 0); [discriminate|].
  destruct s as [|b r]; [cbn in *; lia|].
  destruct (lead b) as [[[v k] least]|]; [|discriminate].
  destruct (Nat.ltb_spec (length (b :: r)) k); [discriminate|].
  pose proof (continuations_no_oob (k - 1) r v) as K. cbn [length] in *.
  destruct (continuations (k - 1) r v); try discriminate.
  - destruct (_ || _); discriminate.
  - destruct K; [lia|reflexivity].
Qed.

Lemma decode_inv s c n : utf8_to_ucs4 s (length s) = UOk c n -> c < 1114112 ->
  character c /\ s = utf8 c ++ skipn n s /\ n = length (utf8 c).
Proof.
  intros H Hc. unfold utf8_to_ucs4 in H.
  destruct (Nat.eqb_spec (length s) 0); [discriminate|].
  destruct s as [|b r]; [discriminate|].
  destruct (lead b) as [[[v k] least]|] eqn:L; [|discriminate].
  destruct (Nat.ltb_spec (length (b :: r)) k); [discriminate|].
  destruct (continuations (k - 1) r v) as [c' m| | |] eqn:K; try discriminate.
  destruct ((c' <? least) || forbidden c') eqn:B; [discriminate|].
  injection H as -> <-. apply orb_false_iff in B. destruct B as [B1 B2].
  assert (Ch : character c).
  { unfold character. unfold forbidden in B2. lia. }
  split; [exact Ch|].
  destruct (continuations_shape _ _ _ _ _ K) as (w & r' & -> & Lw & F & Ec).
  assert (E : utf8 c = b :: w /\ k = S (length w)).
  { unfold lead in L. unfold utf8.
    destruct (N.ltb_spec b 128).
    { injection L as <- <- <-. destruct w; [|discriminate]. cbn in Ec. subst c.
      destruct (N.ltb_spec b 128); [auto|lia]. }
    destruct (N.ltb_spec b 192); [discriminate|].
    destruct (N.ltb_spec b 224).
    { injection L as <- <- <-. destruct w as [|w1 [|]]; try discriminate.
      cbn [fold_left] in Ec. inversion F as [|? ? F1 _]; subst.
      destruct (N.ltb_spec (b mod 32 * 64 + w1 mod 64) 128); [lia|].
      destruct (N.ltb_spec (b mod 32 * 64 + w1 mod 64) 2048); [|lia].
      split; [|reflexivity]. f_equal; [lia|]. f_equal. lia. }
    destruct (N.ltb_spec b 240).
    { injection L as <- <- <-. destruct w as [|w1 [|w2 [|]]]; try discriminate.
      cbn [fold_left] in Ec. inversion F as [|? ? F1 F']; subst. inversion F' as [|? ? F2 _]; subst.
      set (c := (b mod 16 * 64 + w1 mod 64) * 64 + w2 mod 64) in *.
      assert (c = b mod 16 * 4096 + w1 mod 64 * 64 + w2 mod 64) as Ec by (unfold c; lia). clearbody c.
      destruct (N.ltb_spec c 128); [lia|].
      destruct (N.ltb_spec c 2048); [lia|].
      destruct (N.ltb_spec c 65536); [|lia].
      split; [|reflexivity]. f_equal; [lia|]. f_equal; [lia|]. f_equal. lia. }
    destruct (N.ltb_spec b 248).
    { injection L as <- <- <-. destruct w as [|w1 [|w2 [|w3 [|]]]]; try discriminate.
      cbn [fold_left] in Ec. inversion F as [|? ? F1 F']; subst. inversion F' as [|? ? F2 F'']; subst.
      inversion F'' as [|? ? F3 _]; subst.
      set (c := ((b mod 8 * 64 + w1 mod 64) * 64 + w2 mod 64) * 64 + w3 mod 64) in *.
      assert (c = b mod 8 * 262144 + w1 mod 64 * 4096 + w2 mod 64 * 64 + w3 mod 64) as Ec by (unfold c; lia).
      clearbody c.
      destruct (N.ltb_spec c 128); [lia|].
      destruct (N.ltb_spec c 2048); [lia|].
      destruct (N.ltb_spec c 65536); [lia|].
      split; [|reflexivity]. f_equal; [lia|]. f_equal; [lia|]. f_equal; [lia|]. f_equal. lia. }
    destruct (N.ltb_spec b 252); [injection L as <- <- <-; lia|].
    destruct (N.ltb_spec b 254); [injection L as <- <- <-; lia|discriminate]. }
  destruct E as [E ->]. rewrite E. split; [|reflexivity].
  change (b :: w ++ r') with ((b :: w) ++ r'). change (S (length w)) with (length (b :: w)).
  rewrite skipn_app_exact. reflexivity.
Qed.

(** ** Validation *)

Section WithState.
Context {St : Type}.
Implicit Types st : St.

Lemma chars_loop_ok p st : (forall c, p c = true -> c < 1114112) -> forall fuel s,
  (length s <= fuel)%nat ->
  exists b, chars_loop fuel p s st = Ok b st /\
    (b = true <-> exists cs, s = encoded cs /\ Forall character cs /\ Forall (fun c => p c = true) cs).
Proof.
  intros Hp. induction fuel as [|f IH]; intros s L.
  - destruct s; [|cbn in L; lia]. exists true. split; [reflexivity|]. split; [|reflexivity].
    intros _. exists []. repeat split; constructor.
  - destruct s as [|x s'].
    { exists true. split; [reflexivity|]. split; [|reflexivity].
      intros _. exists []. repeat split; constructor. }
    set (s := x :: s') in *.
    assert (E : chars_loop (S f) p s st =
      match utf8_to_ucs4 s (length s) with
      | UOk ch n => if p ch then chars_loop f p (skipn n s) st else Ok false st
      | UOob => Bad OutOfBounds
      | _ => Ok false st
      end).
    { cbn [chars_loop]. unfold s at 1. destruct (utf8_to_ucs4 s (length s)); try reflexivity.
      destruct (p c); reflexivity. }
    assert (NE : forall cs, s = encoded cs -> exists c r, cs = c :: r).
    { intros [|c r] E'; [discriminate|eauto]. }
    assert (Fwd : forall c r, s = encoded (c :: r) -> character c ->
      utf8_to_ucs4 s (length s) = UOk c (length (utf8 c)) /\ skipn (length (utf8 c)) s = encoded r).
    { intros c r Es Hc. rewrite Es, encoded_cons. rewrite decode_one by (auto; rewrite app_length; lia).
      rewrite skipn_app_exact. auto. }
    rewrite E. clearbody s. destruct (utf8_to_ucs4 s (length s)) as [c n| | |] eqn:D.
    + destruct (p c) eqn:P.
      * destruct (decode_inv s c n D (Hp c P)) as (Hc & Es & En).
        destruct (IH (skipn n s)) as (b & Eb & Hb).
        { rewrite skipn_length. pose proof (utf8_nonempty c). lia. }
        exists b. split; [exact Eb|]. rewrite Hb. split.
        -- intros (cs & E1 & F1 & F2). exists (c :: cs). rewrite encoded_cons, <- E1. repeat split; auto.
        -- intros (cs & E1 & F1 & F2). destruct (NE cs E1) as (c' & r & ->).
           pose proof (Forall_inv F1) as G1; pose proof (Forall_inv_tail F1) as G2. pose proof (Forall_inv F2) as G3; pose proof (Forall_inv_tail F2) as G4; cbv beta in G3.
           destruct (Fwd c' r E1) as [D' Sk]; [assumption|]. injection D' as -> ->.
           exists r. repeat split; assumption.
      * exists false. split; [reflexivity|]. split; [discriminate|].
        intros (cs & E1 & F1 & F2). destruct (NE cs E1) as (c' & r & ->).
        pose proof (Forall_inv F1) as G1; pose proof (Forall_inv_tail F1) as G2. pose proof (Forall_inv F2) as G3; pose proof (Forall_inv_tail F2) as G4; cbv beta in G3.
        destruct (Fwd c' r E1) as [D' Sk]; [assumption|]. congruence.
    + exists false. split; [reflexivity|]. split; [discriminate|].
      intros (cs & E1 & F1 & F2). destruct (NE cs E1) as (c' & r & ->). pose proof (Forall_inv F1) as G1; pose proof (Forall_inv_tail F1) as G2.
      destruct (Fwd c' r E1) as [D' Sk]; [assumption|]. congruence.
    + exists false. split; [reflexivity|]. split; [discriminate|].
      intros (cs & E1 & F1 & F2). destruct (NE cs E1) as (c' & r & ->). pose proof (Forall_inv F1) as G1; pose proof (Forall_inv_tail F1) as G2.
      destruct (Fwd c' r E1) as [D' Sk]; [assumption|]. congruence.
    + destruct (decode_no_oob s D).
Qed.

Lemma string_length_defined s st : exists k, string_length s st = Ok k st.
Proof.
  unfold string_length.
  assert (H : forall f s, (length s <= f)%nat -> utf8_length f s <> None).
  { induction f as [|f IH]; intros [|b r] L; try discriminate; [cbn in L; lia|].
    cbn [utf8_length]. destruct (lead b) as [[[v n] least]|] eqn:E; [|discriminate].
    assert (n <> 0%nat).
    { unfold lead in E. repeat (destruct (_ <? _) in E); try discriminate; injection E as <- <- <-; discriminate. }
    specialize (IH (skipn n (b :: r))). rewrite skipn_length in IH. cbn [length] in *.
    destruct (utf8_length f (skipn n (b :: r))) as [[k|]|]; try discriminate.
    destruct IH; [lia|reflexivity]. }
  specialize (H (length s) s (le_n _)).
  destruct (utf8_length (length s) s) as [[k|]|]; [eexists; reflexivity..|congruence].
Qed.

Lemma validate_with_ok first rest (s : bytes) st :
  (forall c, first c = true -> c < 1114112) -> (forall c, rest c = true -> c < 1114112) ->
  N.of_nat (length s) < two32 ->
  exists b, validate_with first rest (Some s) st = Ok b st /\
    (b = true <-> exists c r, s = encoded (c :: r) /\ Forall character (c :: r) /\
                   first c = true /\ Forall (fun x => rest x = true) r).
Proof.
  intros H1 H2 L. unfold validate_with, bind.
  destruct (string_length_defined s st) as [k Ek]. rewrite Ek.
  assert (Len : forall c r, s = encoded (c :: r) -> Forall character (c :: r) -> k <> 0).
  { intros c r Es F. subst s. rewrite string_length_ok in Ek by (split; assumption).
    injection Ek as <-. cbn [length]. lia. }
  assert (Fwd : forall c r, s = encoded (c :: r) -> character c ->
    utf8_to_ucs4 s (length s) = UOk c (length (utf8 c)) /\ skipn (length (utf8 c)) s = encoded r).
  { intros c r Es Hc. rewrite Es, encoded_cons. rewrite decode_one by (auto; rewrite app_length; lia).
    rewrite skipn_app_exact. auto. }
  destruct (N.eqb_spec k 0) as [->|Nk].
  { exists false. split; [reflexivity|]. split; [discriminate|].
    intros (c & r & Es & F & _). destruct (Len c r Es F). reflexivity. }
  destruct (utf8_to_ucs4 s (length s)) as [c n| | |] eqn:D.
  - destruct (first c) eqn:P.
    + destruct (decode_inv s c n D (H1 c P)) as (Hc & Es & En).
      destruct (chars_loop_ok rest st H2 (length s) (skipn n s)) as (b & Eb & Hb).
      { rewrite skipn_length. lia. }
      exists b. split; [exact Eb|]. rewrite Hb. split.
      * intros (cs & E1 & F1 & F2). exists c, cs. rewrite encoded_cons, <- E1. repeat split; auto.
      * intros (c' & r & E1 & F1 & F2 & F3). pose proof (Forall_inv F1) as G1; pose proof (Forall_inv_tail F1) as G2.
        destruct (Fwd c' r E1) as [D' Sk]; [assumption|]. injection D' as -> ->.
        exists r. repeat split; assumption.
    + exists false. split; [reflexivity|]. split; [discriminate|].
      intros (c' & r & E1 & F1 & F2 & F3). pose proof (Forall_inv F1) as G1; pose proof (Forall_inv_tail F1) as G2.
      destruct (Fwd c' r E1) as [D' Sk]; [assumption|]. congruence.
  - exists false. split; [reflexivity|]. split; [discriminate|].
    intros (c' & r & E1 & F1 & F2 & F3). pose proof (Forall_inv F1) as G1; pose proof (Forall_inv_tail F1) as G2.
    destruct (Fwd c' r E1) as [D' Sk]; [assumption|]. congruence.
  - exists false. split; [reflexivity|]. split; [discriminate|].
    intros (c' & r & E1 & F1 & F2 & F3). pose proof (Forall_inv F1) as G1; pose proof (Forall_inv_tail F1) as G2.
    destruct (Fwd c' r E1) as [D' Sk]; [assumption|]. congruence.
  - destruct (decode_no_oob s D).
Qed.

Lemma NameChar_bound c : NameChar c -> c < 1114112.
Proof. intros H. apply NameChar_character in H. apply H. Qed.

Lemma validate_name_ok (s : bytes) st : N.of_nat (length s) < two32 ->
  exists b, validate_name (Some s) st = Ok b st /\
    (b = true <-> exists cs, s = encoded cs /\ Name cs).
Proof.
  intros L. unfold validate_name.
  destruct (validate_with_ok is_first_char is_name_char s st) as (b & E & H); auto.
  - intros c Hc. apply is_first_char_iff in Hc. apply NameChar_bound. left. exact Hc.
  - intros c Hc. apply is_name_char_iff in Hc. apply NameChar_bound. exact Hc.
  - exists b. split; [exact E|]. rewrite H. split.
    + intros (c & r & Es & F & F1 & F2). exists (c :: r). split; [exact Es|]. exists c, r.
      split; [reflexivity|]. split; [apply is_first_char_iff; exact F1|].
      eapply Forall_impl; [|exact F2]. intros x Hx. apply is_name_char_iff. exact Hx.
    + intros (cs & Es & c & r & -> & F1 & F2). exists c, r. split; [exact Es|]. split; [|split].
      * constructor; [apply NameChar_character; left; exact F1|].
        eapply Forall_impl; [|exact F2]. intros x Hx. apply NameChar_character. exact Hx.
      * apply is_first_char_iff. exact F1.
      * eapply Forall_impl; [|exact F2]. intros x Hx. apply is_name_char_iff. exact Hx.
Qed.

(** What _dom_validate_ncname accepts. *)
Definition CodeNCName (cs : list N) : Prop :=
  exists c r, cs = c :: r /\
    (listed c base_char_range \/ listed c ideographic_range \/ c = 95) /\
    Forall NameChar r /\ ~ In 58 r.

Lemma letter_not_colon c : is_letter c = true -> c <> 58.
Proof. intros H ->. revert H. vm_compute. discriminate. Qed.

Lemma CodeNCName_NCName cs : CodeNCName cs -> NCName cs.
Proof.
  intros (c & r & -> & F & F1 & F2).
  assert (L : is_letter c = true \/ c = 95) by (rewrite is_letter_iff; tauto).
  split.
  - exists c, r. split; [reflexivity|]. split; [|exact F1].
    destruct L as [L| ->]; [apply letters_start; exact L|]. apply listedb_ok. reflexivity.
  - intros [E|I]; [|contradiction]. subst c. destruct L as [L|L]; [|discriminate].
    exact (letter_not_colon 58 L eq_refl).
Qed.

Lemma validate_ncname_ok (s : bytes) st : N.of_nat (length s) < two32 ->
  exists b, validate_ncname (Some s) st = Ok b st /\
    (b = true <-> exists cs, s = encoded cs /\ CodeNCName cs).
Proof.
  intros L. unfold validate_ncname.
  assert (FS : forall c, is_letter c || (c =? 95) = true <->
    listed c base_char_range \/ listed c ideographic_range \/ c = 95).
  { intros c. rewrite orb_true_iff, is_letter_iff, N.eqb_eq. tauto. }
  assert (FR : forall c, is_name_char c && negb (c =? 58) = true <-> NameChar c /\ c <> 58).
  { intros c. rewrite andb_true_iff, is_name_char_iff, negb_true_iff, N.eqb_neq. tauto. }
  assert (FC : forall c, is_letter c || (c =? 95) = true -> NameChar c).
  { intros c Hc. apply orb_true_iff in Hc. destruct Hc as [Hc|Hc].
    - left. apply letters_start. exact Hc.
    - apply N.eqb_eq in Hc. subst c. left. apply listedb_ok. reflexivity. }
  destruct (validate_with_ok (fun ch => is_letter ch || (ch =? 95))
    (fun ch => is_name_char ch && negb (ch =? 58)) s st) as (b & E & H); auto.
  - intros c Hc. apply NameChar_bound. apply FC. exact Hc.
  - intros c Hc. apply NameChar_bound. apply FR in Hc. apply Hc.
  - exists b. split; [exact E|]. rewrite H. split.
    + intros (c & r & Es & F & F1 & F2). exists (c :: r). split; [exact Es|]. exists c, r.
      rewrite Forall_forall in F2.
      split; [reflexivity|]. split; [apply FS; exact F1|]. split.
      * rewrite Forall_forall. intros x Hx. specialize (F2 x Hx). apply FR in F2. apply F2.
      * intros I. specialize (F2 58 I). apply FR in F2. destruct F2 as [_ F2]. apply F2. reflexivity.
    + intros (cs & Es & c & r & -> & F1 & F2 & F3). exists c, r. split; [exact Es|]. split; [|split].
      * constructor; [apply NameChar_character; apply FC; apply FS; exact F1|].
        eapply Forall_impl; [|exact F2]. intros x Hx. apply NameChar_character. exact Hx.
      * apply FS. exact F1.
      * rewrite Forall_forall in *. intros x Hx. apply FR. split; [apply F2; exact Hx|].
        intros ->. contradiction.
Qed.

(** ** Qualified names *)

Lemma colon_split cs : ~ In 58 cs \/ exists a b, cs = a ++ 58 :: b /\ ~ In 58 a.
Proof.
  induction cs as [|c cs [IH|(a & b & -> & IH)]].
  - left. intros [].
  - destruct (N.eq_dec c 58) as [->|Ne].
    + right. exists [], cs. split; [reflexivity|intros []].
    + left. intros [E|I]; [congruence|contradiction].
  - destruct (N.eq_dec c 58) as [->|Ne].
    + right. exists [], (a ++ 58 :: b). split; [reflexivity|intros []].
    + right. exists (c :: a), b. split; [reflexivity|]. intros [E|I]; [congruence|contradiction].
Qed.

Lemma slice_before a (b : list N) : slice 0 (length a) (a ++ b) = a.
Proof. unfold slice. rewrite Nat.sub_0_r. cbn [skipn]. apply firstn_app_exact. Qed.

Lemma slice_after a (x : N) b : slice (length a + 1) (length (a ++ x :: b)) (a ++ x :: b) = b.
Proof.
  unfold slice. replace (a ++ x :: b) with ((a ++ [x]) ++ b) by (rewrite <- app_assoc; reflexivity).
  replace (length a + 1)%nat with (length (a ++ [x])) by (rewrite app_length; reflexivity).
  rewrite skipn_app_exact. apply firstn_all2. rewrite app_length. lia.
Qed.

Lemma split_none cs st : text cs -> ~ In 58 cs ->
  split_qname (encoded cs) st = Ok (None, encoded cs) st.
Proof.
  intros T N. unfold split_qname, bind. rewrite string_index_absent by assumption. reflexivity.
Qed.

Lemma colon_facts a b st : text (a ++ 58 :: b) -> ~ In 58 a ->
  string_index (encoded (a ++ 58 :: b)) 58 st = Ok (N.of_nat (length a)) st /\
  N.of_nat (length a) <> NOPOS /\
  string_length (encoded (a ++ 58 :: b)) st = Ok (N.of_nat (length (a ++ 58 :: b))) st /\
  string_substr (encoded (a ++ 58 :: b)) 0 (N.of_nat (length a)) st = Ok (encoded a) st /\
  string_substr (encoded (a ++ 58 :: b)) (u32 (N.of_nat (length a) + 1))
    (N.of_nat (length (a ++ 58 :: b))) st = Ok (encoded b) st.
Proof.
  intros T Na. pose proof (text_count _ T) as TC.
  assert (Hl : length (a ++ 58 :: b) = (length a + S (length b))%nat) by apply app_length.
  split; [apply string_index_found; [exact T|]; exists a, b; auto|].
  split; [unfold NOPOS, two32 in *; lia|].
  split; [apply string_length_ok; exact T|]. split.
  - rewrite string_substr_ok by (auto; unfold two32 in *; lia).
    destruct (N.leb_spec 0 (N.of_nat (length a))); [|lia].
    destruct (N.leb_spec (N.of_nat (length a)) (N.of_nat (length (a ++ 58 :: b)))); [|lia].
    cbn [andb]. rewrite Nat2N.id. change (N.to_nat 0) with 0%nat. rewrite slice_before. reflexivity.
  - rewrite u32_small by lia.
    rewrite string_substr_ok by (auto; unfold two32 in *; lia).
    destruct (N.leb_spec (N.of_nat (length a) + 1) (N.of_nat (length (a ++ 58 :: b)))); [|lia].
    rewrite N.leb_refl. cbn [andb]. rewrite Nat2N.id.
    replace (N.to_nat (N.of_nat (length a) + 1)) with (length a + 1)%nat by lia.
    rewrite slice_after. reflexivity.
Qed.

Lemma split_some a b st : text (a ++ 58 :: b) -> ~ In 58 a ->
  split_qname (encoded (a ++ 58 :: b)) st = Ok (Some (encoded a), encoded b) st.
Proof.
  intros T Na. destruct (colon_facts a b st T Na) as (E1 & Ne & E2 & E3 & E4).
  unfold split_qname, bind. rewrite E1. destruct (N.eqb_spec (N.of_nat (length a)) NOPOS); [congruence|].
  rewrite E3, E2, E4. reflexivity.
Qed.

Lemma node_name_none l st : node_name (None, l) st = Ok l st.
Proof. reflexivity. Qed.

Lemma node_name_some p l st : node_name (Some p, l) st = Ok (p ++ 58 :: l) st.
Proof. unfold node_name. cbn. unfold ret. rewrite <- app_assoc. reflexivity. Qed.

Lemma encoded_colon a b : encoded (a ++ 58 :: b) = encoded a ++ 58 :: encoded b.
Proof. rewrite encoded_app, encoded_cons. reflexivity. Qed.

(** Splitting and joining is the identity. *)
Lemma split_join cs st : text cs ->
  exists n, split_qname (encoded cs) st = Ok n st /\ node_name n st = Ok (encoded cs) st.
Proof.
  intros T. destruct (colon_split cs) as [N|(a & b & -> & Na)].
  - exists (None, encoded cs). rewrite split_none by assumption. auto.
  - exists (Some (encoded a), encoded b). rewrite split_some by assumption.
    rewrite node_name_some, encoded_colon. auto.
Qed.

Lemma Name_text cs : Name cs -> N.of_nat (length (encoded cs)) < two32 -> text cs.
Proof.
  intros (c & r & -> & F1 & F2) L. split; [|exact L].
  constructor; [apply NameChar_character; left; exact F1|].
  eapply Forall_impl; [|exact F2]. intros x Hx. apply NameChar_character. exact Hx.
Qed.

Lemma create_ns_name ns (s : bytes) n st : N.of_nat (length s) < two32 ->
  create_named_ns false ns s st = Ok n st -> node_name n st = Ok s st.
Proof.
  intros L H. cbv beta iota delta [create_named_ns bind] in H.
  destruct (validate_name_ok s st L) as (b & E & Hb). rewrite E in H.
  destruct b; [|discriminate]. cbn [negb] in H.
  destruct (validate_qname (Some s) ns st) as [u st'|e st'|e] eqn:V; try discriminate.
  destruct Hb as [Hb _]. destruct (Hb eq_refl) as (cs & -> & Nm).
  pose proof (Name_text cs Nm L) as T.
  assert (St' : st' = st).
  { assert (forall (A : Type) (m : M St A) a t t', (m t = Ok a t' -> t' = t) -> m t = Ok a t' -> t' = t) by auto.
    destruct (split_join cs st' T) as (n' & E' & _). rewrite E' in H. injection H as _ H. exact H. }
  subst st'. destruct (split_join cs st T) as (n' & E' & J). rewrite E' in H. injection H as <-. exact J.
Qed.

(** The reserved prefixes and namespaces. *)
Definition reserved_ok (ns : option bytes) (n : option bytes * bytes) : Prop :=
  (fst n = Some s_xml -> ns = Some XML_NS) /\
  (fst n = Some s_xmlns -> ns = Some XMLNS_NS) /\
  (fst n = None -> snd n = s_xmlns -> ns <> None -> ns = Some XMLNS_NS) /\
  (ns = Some XMLNS_NS -> fst n = Some s_xmlns \/ (fst n = None /\ snd n = s_xmlns)) /\
  (forall p, fst n = Some p -> p <> [] -> ns <> None).

Ltac eqb_cases :=
  repeat match goal with
  | H : context [bytes_eqb ?a ?b] |- _ => destruct (bytes_eqb_spec a b); cbn [andb negb] in H
  end.

Lemma create_ns_reserved ns (s : bytes) n st : N.of_nat (length s) < two32 ->
  create_named_ns false ns s st = Ok n st -> reserved_ok ns n.
Proof.
  intros L H. cbv beta iota delta [create_named_ns bind] in H.
  destruct (validate_name_ok s st L) as (b & E & Hb). rewrite E in H.
  destruct b; [|discriminate]. cbn [negb] in H.
  destruct (validate_qname (Some s) ns st) as [u st'|e st'|e] eqn:V; try discriminate.
  destruct Hb as [Hb _]. destruct (Hb eq_refl) as (cs & -> & Nm).
  pose proof (Name_text cs Nm L) as T.
  unfold validate_qname, bind in V. rewrite E in V. cbn [negb] in V.
  rewrite string_length_ok in V by exact T.
  destruct (colon_split cs) as [Nc|(a & b & -> & Na)].
  - rewrite string_index_absent in V by assumption. rewrite N.eqb_refl in V.
    rewrite split_none in H by assumption. injection H as <- _.
    unfold reserved_ok. cbn [fst snd].
    destruct ns as [ns|].
    + eqb_cases; try discriminate; repeat split; intros; try discriminate; try congruence;
        try (right; split; [reflexivity|]; congruence).
    + repeat split; intros; try discriminate; congruence.
  - destruct (colon_facts a b st T Na) as (E1 & Ne & E2 & E3 & E4).
    rewrite split_some in H by assumption. injection H as <- _.
    rewrite E1 in V. destruct (N.eqb_spec (N.of_nat (length a)) NOPOS); [congruence|].
    unfold reserved_ok. cbn [fst snd].
    destruct (N.eqb_spec (N.of_nat (length a)) 0) as [Z|Z].
    + destruct a; [|cbn in Z; lia]. destruct ns; [discriminate|].
      change (encoded []) with (@nil N).
      repeat split; intros; try discriminate; try congruence.
    + destruct ns as [ns|]; [|discriminate].
      rewrite E3, E4 in V.
      destruct (text_parts a (58 :: b) T) as [Ta Tb].
      destruct (text_parts [58] b Tb) as [_ Tb'].
      destruct (validate_ncname_ok (encoded a) st (proj2 Ta)) as (okp & Ep & _). rewrite Ep in V.
      destruct okp; cbn [negb] in V; [|discriminate].
      destruct (validate_ncname_ok (encoded b) st (proj2 Tb')) as (okl & El & _). rewrite El in V.
      destruct okl; cbn [negb] in V; [|discriminate].
      eqb_cases; try discriminate; repeat split; intros; try discriminate; try congruence;
        try (left; congruence).
Qed.

End WithState.

(** ** Attribute names *)

Lemma is_attribute_name_char_iff ch :
  ch < 2147483648 -> is_attribute_name_char ch = true <-> AttributeNameChar ch \/ ch <= 0x1F.
Proof.
  intros B. unfold is_attribute_name_char, between, AttributeNameChar, control, noncharacter.
  assert (Ev : N.land ch 0xFFFE = ch mod 65536 / 2 * 2).
  { change 0xFFFE with (N.shiftl (N.ones 15) 1).
    apply N.bits_inj. intros i. rewrite N.land_spec.
    replace (ch mod 65536 / 2 * 2) with (N.shiftl (N.shiftr (N.land ch (N.ones 16)) 1) 1).
    2:{ rewrite N.land_ones, N.shiftr_div_pow2, N.shiftl_mul_pow2. reflexivity. }
    destruct (N.eq_dec i 0) as [->|Ni].
    - rewrite !N.shiftl_spec_low by lia. apply andb_false_r.
    - rewrite !N.shiftl_spec_high' by lia. rewrite N.shiftr_spec', N.land_spec.
      replace (i - 1 + 1) with i by lia. f_equal.
      destruct (N.lt_ge_cases (i - 1) 15).
      + rewrite !N.ones_spec_low by lia. reflexivity.
      + rewrite !N.ones_spec_high by lia. reflexivity. }
  rewrite Ev. cbn [In].
  destruct ((97 <=? ch) && (ch <=? 122) || (65 <=? ch) && (ch <=? 90) || (48 <=? ch) && (ch <=? 57)) eqn:A.
  { split; [|reflexivity]. intros _. left. lia. }
  destruct ((ch =? 32) || (ch =? 34) || (ch =? 39) || (ch =? 62) || (ch =? 47) || (ch =? 61)) eqn:Q.
  { split; [discriminate|]. lia. }
  destruct ((0x7F <=? ch) && (ch <=? 0x9F)) eqn:C1.
  { split; [discriminate|]. lia. }
  destruct ((0xFDD0 <=? ch) && (ch <=? 0xFDEF)) eqn:C2.
  { split; [discriminate|]. lia. }
  destruct (ch mod 65536 / 2 * 2 =? 0xFFFE) eqn:C3.
  { split; [discriminate|]. lia. }
  split; [|reflexivity]. intros _. destruct (N.le_gt_cases ch 0x1F); [right; assumption|left].
  lia.
Qed.

Lemma chars_loop_text {St} p cs (st : St) : Forall character cs -> forall fuel, (length cs <= fuel)%nat ->
  chars_loop fuel p (encoded cs) st = Ok (forallb p cs) st.
Proof.
  induction 1 as [|c cs Hc H IH]; intros fuel L; [destruct fuel; reflexivity|].
  destruct fuel as [|f]; [cbn in L; lia|]. rewrite encoded_cons. cbn [chars_loop].
  rewrite decode_one by (auto; rewrite app_length; lia). rewrite skipn_app_exact.
  destruct (utf8_inv c) as (b & w & E). rewrite E. cbn [app forallb].
  destruct (p c); [|reflexivity]. cbn [andb]. apply IH. cbn in L. lia.
Qed.

Lemma validate_attribute_name_ok {St} cs (st : St) : text cs ->
  exists b, validate_attribute_name (Some (encoded cs)) st = Ok b st /\
    (b = true <-> cs <> [] /\ Forall (fun c => AttributeNameChar c \/ c <= 0x1F) cs).
Proof.
  intros T. cbv beta iota delta [validate_attribute_name bind].
  rewrite string_length_ok by exact T. destruct cs as [|c cs].
  { exists false. split; [reflexivity|]. split; [discriminate|]. intros [H _]. congruence. }
  replace (N.of_nat (length (c :: cs)) =? 0) with false by (cbn [length]; lia).
  pose proof T as [F _]. inversion F as [|? ? F1 F2]; subst.
  assert (D : utf8_to_ucs4 (encoded (c :: cs)) (length (encoded (c :: cs))) = UOk c (length (utf8 c))).
  { rewrite encoded_cons. apply decode_one; [exact F1|]. rewrite app_length. lia. }
  rewrite D. rewrite chars_loop_text; [|exact F|apply encoded_length].
  exists (forallb is_attribute_name_char (c :: cs)). split; [reflexivity|].
  rewrite forallb_forall. split.
  - intros H. split; [discriminate|]. rewrite Forall_forall in *. intros x Hx.
    apply is_attribute_name_char_iff; [|apply H; exact Hx]. specialize (F x Hx).
    destruct F as [F _]. lia.
  - intros [_ H] x Hx. rewrite Forall_forall in *. specialize (F x Hx). destruct F as [F _].
    apply is_attribute_name_char_iff; [lia|]. apply H. exact Hx.
Qed.
