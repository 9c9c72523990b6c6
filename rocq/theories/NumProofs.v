(** Reading and printing numbers; the properties kept in attributes. *)
From Coq Require Import List Arith NArith ZArith Bool Lia ZifyBool ZifyNat ZifyN.
From Verif Require Import Base StringModel StringSpec StringProofs NameModel AttrModel AttrSpec AttrRing AttrProofs AttrRun AttrGood NumModel NumSpec.
Import ListNotations.
Local Open Scope N_scope.

(** ** Digits *)
Lemma digit_ok : forall c d, digit_is c d -> digit c = Some d.
Proof.
  intros c d H. unfold digit. destruct H as [c H|c H|c H].
  - destruct (_ && _) eqn:E; [auto|lia].
  - destruct (_ && _) eqn:E; [lia|]. destruct ((97 <=? c) && _) eqn:E2; [f_equal; lia|lia].
  - destruct (_ && _) eqn:E; [lia|]. destruct ((97 <=? c) && _) eqn:E2; [lia|]. destruct ((65 <=? c) && _) eqn:E3; [f_equal; lia|lia].
Qed.
Lemma digit_back : forall c d, digit c = Some d -> digit_is c d.
Proof.
  intros c d. unfold digit. destruct (_ && _) eqn:E; [intros H; inversion H; apply d_number; lia|].
  destruct ((97 <=? c) && _) eqn:E2; [intros H; inversion H; replace (c - 87) with (c - 97 + 10) by lia; apply d_lower; lia|].
  destruct ((65 <=? c) && _) eqn:E3; [intros H; inversion H; replace (c - 55) with (c - 65 + 10) by lia; apply d_upper; lia|discriminate].
Qed.

Lemma read_prefix : forall b ds v, digits b ds v -> forall rest, read_digits b (ds ++ rest) 0 = read_digits b rest v.
Proof.
  intros b ds v H. induction H as [|ds v c d H IH D L]; intros rest; auto. rewrite <- app_assoc. rewrite IH. cbn [app read_digits].
  rewrite (digit_ok _ _ D). destruct (d <? b) eqn:E; [auto|lia].
Qed.
Lemma read_stops : forall b rest v, stops b rest -> read_digits b rest v = v.
Proof.
  intros b [|c r] v H; auto. cbn [read_digits]. destruct (digit c) as [d|] eqn:E; auto. specialize (H c d eq_refl (digit_back _ _ E)). destruct (d <? b) eqn:L; [lia|auto].
Qed.
Lemma read_all : forall b ds v rest, digits b ds v -> stops b rest -> read_digits b (ds ++ rest) 0 = v.
Proof. intros b ds v rest H S. rewrite (read_prefix _ _ _ H), read_stops; auto. Qed.

Lemma digits_all : forall b ds v, digits b ds v -> Forall (fun c => exists d, digit_is c d /\ d < b) ds.
Proof. intros b ds v H. induction H as [|ds v c d H IH D L]; auto. apply Forall_app. split; auto. constructor; auto. exists d. auto. Qed.
Lemma digits_head : forall b c ds v, digits b (c :: ds) v -> exists d, digit_is c d /\ d < b.
Proof. intros b c ds v H. apply digits_all in H. inversion H; auto. Qed.
Lemma small_digit : forall c d, digit_is c d -> d < 10 -> 48 <= c <= 57.
Proof. intros c d H L. destruct H; lia. Qed.
Lemma is_digit_pos : forall c d, digit_is c d -> 48 <= c.
Proof. intros c d H. destruct H; lia. Qed.

(** ** Numerals *)
Lemma numeral_head : forall b ds v, numeral b ds v -> exists c r, ds = c :: r /\ 48 <= c <= 57.
Proof.
  intros b ds v H. destruct H as [ds v D N H| |ds v D N|x ds v X D N]; try (eexists; eexists; split; [reflexivity|lia]).
  destruct ds as [|c r]; [congruence|]. exists c, r. split; auto. destruct (digits_head _ _ _ _ D) as (d & G & L). eapply small_digit; eauto.
Qed.
Lemma numeral_chars : forall b ds v, numeral b ds v -> ~ In 0 ds.
Proof.
  assert (A : forall b ds v, digits b ds v -> ~ In 0 ds).
  { intros b ds v D I. apply digits_all in D. rewrite Forall_forall in D. destruct (D _ I) as (d & G & _). apply is_digit_pos in G. lia. }
  intros b ds v H. destruct H as [ds v D N H| |ds v D N|x ds v X D N].
  - eapply A; eauto. - cbn; intuition discriminate. - intros [E|I]; [discriminate|]. eapply A; eauto.
  - intros [E|[E|I]]; [discriminate|lia|]. eapply A; eauto.
Qed.
Lemma read_based_ok : forall b ds v rest, numeral b ds v -> ends b ds rest -> read_based (ds ++ rest) = v.
Proof.
  intros b ds v rest H [S E]. destruct H as [ds v D N H| |ds v D N|x ds v X D N].
  - destruct ds as [|c ds]; [congruence|]. assert (C : c =? 48 = false) by (apply N.eqb_neq; intros ->; apply H; auto).
    rewrite <- (read_all 10 (c :: ds) v rest D S). unfold read_based. cbn [app]. destruct (ds ++ rest) as [|x [|h r]]; rewrite C; auto.
  - destruct (E eq_refl) as [E1 E2]. cbn [app]. unfold read_based. cbn [N.eqb Pos.eqb andb]. destruct rest as [|x [|h r]].
    + reflexivity.
    + change (48 :: [x]) with ([48] ++ [x]). apply read_all; auto. apply (ds_more 8 [] 0 48 0); [constructor|exact (d_number 48 ltac:(lia))|lia].
    + cbn [hd_error] in E1, E2. destruct (_ && _) eqn:F.
      { exfalso. apply andb_prop in F as [F _]. apply orb_prop in F as [F|F]; apply N.eqb_eq in F; subst; congruence. }
      change (48 :: x :: h :: r) with ([48] ++ x :: h :: r). apply read_all; auto. apply (ds_more 8 [] 0 48 0); [constructor|exact (d_number 48 ltac:(lia))|lia].
  - destruct ds as [|c ds]; [congruence|]. destruct (digits_head _ _ _ _ D) as (d & G & L). pose proof (small_digit _ _ G ltac:(lia)) as R.
    rewrite <- (read_all 8 (c :: ds) v rest D S). cbn [app]. unfold read_based.
    assert (F : forall t, (48 =? 48) && ((c =? 120) || (c =? 88)) && t = false) by (intros []; lia).
    assert (Z : read_digits 8 (48 :: c :: ds ++ rest) 0 = read_digits 8 (c :: ds ++ rest) 0) by reflexivity.
    destruct (ds ++ rest) as [|h r]; [exact Z|]. rewrite F. exact Z.
  - destruct ds as [|c ds]; [congruence|]. destruct (digits_head _ _ _ _ D) as (d & G & L).
    rewrite <- (read_all 16 (c :: ds) v rest D S). cbn [app]. unfold read_based.
    assert (F : (48 =? 48) && ((x =? 120) || (x =? 88)) && digit_in 16 c = true).
    { unfold digit_in. rewrite (digit_ok _ _ G). destruct (d <? 16) eqn:Y; lia. }
    rewrite F. auto.
Qed.

(** ** Printing *)
Lemma print_ok : forall f n acc, n < 10 ^ N.of_nat f -> (0 < f)%nat -> exists ds, print_digits f n acc = ds ++ acc /\ decimal ds n.
Proof.
  induction f as [|f IH]; intros n acc B F; [lia|]. cbn [print_digits]. pose proof (N.div_mod n 10 ltac:(lia)) as DM. pose proof (N.mod_lt n 10 ltac:(lia)) as ML.
  assert (DG : digit_is (48 + n mod 10) (n mod 10)).
  { replace (n mod 10) with (48 + n mod 10 - 48) at 2 by lia. apply d_number. lia. }
  destruct (n / 10 =? 0) eqn:Z.
  - exists [48 + n mod 10]. split; auto. split; [|split; [discriminate|]].
    + replace n with (0 * 10 + n mod 10) at 2 by lia. apply (ds_more 10 [] 0); [constructor|exact DG|exact ML].
    + cbn [hd_error]. intros H. inversion H. congruence.
  - destruct f as [|f]; [exfalso; change (10 ^ N.of_nat 1) with 10 in B; rewrite (N.div_small n 10 B) in Z; discriminate|].
    destruct (IH (n / 10) (48 + n mod 10 :: acc)) as (ds & P & D & NE & H); [|lia|].
    { apply N.div_lt_upper_bound; [lia|]. replace (10 * 10 ^ N.of_nat (S f)) with (10 ^ N.of_nat (S (S f))); auto. rewrite (Nat2N.inj_succ (S f)), N.pow_succ_r'. auto. }
    exists (ds ++ [48 + n mod 10]). split; [rewrite P, <- app_assoc; auto|]. split; [|split].
    + replace n with (n / 10 * 10 + n mod 10) at 2 by lia. apply ds_more; auto.
    + destruct ds; discriminate.
    + intros G. exfalso. assert (ds = [48]) as -> by (apply H; destruct ds; [congruence|exact G]).
      inversion D as [Q|ds0 v0 c0 d0 D0 G0 L0 Q1 Q2]. destruct ds0 as [|x [|? ?]]; [|discriminate|discriminate]. cbn in Q1. inversion Q1; subst c0.
      apply digit_ok in G0. cbn in G0. inversion G0; subst d0. assert (v0 = 0) by (inversion D0 as [A|ds1 v1 c1 d1 D1 G1 L1 A1 A2]; auto; destruct ds1; discriminate). lia.
Qed.
Lemma print_u32_ok : forall n, n < 4294967296 -> decimal (print_u32 n) n.
Proof. intros n B. destruct (print_ok 10 n []) as (ds & P & D); [change (10 ^ N.of_nat 10) with 10000000000; lia|lia|]. unfold print_u32. rewrite P, app_nil_r. auto. Qed.

Lemma decimal_numeral : forall ds v, decimal ds v -> exists b, numeral b ds v /\ stops b [].
Proof.
  intros ds v (D & NE & H). destruct ds as [|c ds]; [congruence|]. destruct (N.eq_dec c 48) as [->|N].
  - exists 8. split; [|intros c d; discriminate]. specialize (H eq_refl). inversion H; subst. pose proof (read_all 10 [48] v [] D ltac:(intros c d; discriminate)) as R. cbn in R. subst v. constructor.
  - exists 10. split; [|intros c0 d; discriminate]. constructor; auto. intros E. inversion E. congruence.
Qed.

(** ** strtol *)
Lemma skip_ok : forall bl c r, Forall blank bl -> isspace c = false -> skip_space (bl ++ c :: r) = c :: r.
Proof.
  intros bl c r F H. induction F as [|x bl B F IH]; cbn [app skip_space]; [rewrite H; auto|].
  replace (isspace x) with true; auto. unfold isspace. unfold blank in B. lia.
Qed.
Lemma clamp_ok : forall z, clamp z = as_long z.
Proof. intros z. unfold clamp, as_long. change (2 ^ 63)%Z with 9223372036854775808%Z. destruct (z <? _)%Z eqn:E1; [lia|]. destruct (9223372036854775808 <=? z)%Z eqn:E2; lia. Qed.
Lemma strtol_ok : forall bl sg b ds v z rest, Forall blank bl -> sign sg (Z.of_N v) z -> numeral b ds v -> ends b ds rest ->
  strtol0 (bl ++ sg ++ ds ++ rest) = as_long z.
Proof.
  intros bl sg b ds v z rest F SG NU EN. destruct (numeral_head _ _ _ NU) as (c & r & -> & C).
  unfold strtol0. inversion SG; subst; pose proof (read_based_ok b (c :: r) v rest NU EN) as R; cbn [app].
  - rewrite skip_ok by (auto; unfold isspace; lia). replace (c =? 45) with false by lia. replace (c =? 43) with false by lia. cbn [app] in R. rewrite R. apply clamp_ok.
  - rewrite skip_ok by auto. change (43 =? 45) with false. change (43 =? 43) with true. cbv iota. cbn [app] in R. rewrite R. apply clamp_ok.
  - rewrite skip_ok by auto. change (45 =? 45) with true. cbv iota. cbn [app] in R. rewrite R. apply clamp_ok.
Qed.
Lemma nul_ok : forall p rest, ~ In 0 p -> up_to_nul (p ++ rest) = p ++ up_to_nul rest.
Proof. induction p as [|c p IH]; intros rest H; auto. cbn [app up_to_nul]. destruct (c =? 0) eqn:E; [exfalso; apply H; left; lia|]. rewrite IH; auto. intros I. apply H. right; auto. Qed.
Lemma nul_ends : forall b ds rest, ends b ds rest -> ends b ds (up_to_nul rest).
Proof.
  intros b ds [|c r] [S E]; [split; auto|]. cbn [up_to_nul]. destruct (c =? 0); [split; [intros x d; discriminate|intros _; split; discriminate]|]. split.
  - intros x d H. apply S. exact H.
  - exact E.
Qed.
Lemma strtol_text : forall bl sg b ds v z rest, Forall blank bl -> sign sg (Z.of_N v) z -> numeral b ds v -> ends b ds rest ->
  strtol0 (up_to_nul (bl ++ sg ++ ds ++ rest)) = as_long z.
Proof.
  intros bl sg b ds v z rest F SG NU EN. rewrite !app_assoc. rewrite nul_ok.
  - rewrite <- !app_assoc. eapply strtol_ok; eauto. apply nul_ends. auto.
  - intros I. apply in_app_or in I as [I|I]; [apply in_app_or in I as [I|I]|].
    + rewrite Forall_forall in F. specialize (F _ I). unfold blank in F. lia.
    + inversion SG; subst; cbn in I; intuition discriminate.
    + eapply numeral_chars; eauto.
Qed.
Lemma int32_ok : forall z, int32 (to_int32 z) /\ same_bits (to_int32 z) z.
Proof.
  intros z. unfold int32, same_bits, to_int32. change (2 ^ 31)%Z with 2147483648%Z. change (2 ^ 32)%Z with 4294967296%Z.
  pose proof (Z.mod_pos_bound (z + 2147483648) 4294967296 ltac:(lia)). pose proof (Z.div_mod (z + 2147483648) 4294967296 ltac:(lia)). split; [lia|].
  replace ((z + 2147483648) mod 4294967296 - 2147483648 - z)%Z with ((- ((z + 2147483648) / 4294967296)) * 4294967296)%Z by lia. apply Z.mod_mul. lia.
Qed.
Lemma int32_same : forall v, int32 v -> to_int32 (as_long (v mod 4294967296)) = v.
Proof.
  intros v H. unfold int32 in H. change (2 ^ 31)%Z with 2147483648%Z in H. unfold as_long. change (2 ^ 63)%Z with 9223372036854775808%Z.
  pose proof (Z.mod_pos_bound v 4294967296 ltac:(lia)). destruct (_ <? _)%Z eqn:E1; [lia|]. destruct (_ <=? _)%Z eqn:E2; [lia|]. unfold to_int32.
  rewrite Z.add_mod_idemp_l by lia. rewrite Z.mod_small by lia. lia.
Qed.
