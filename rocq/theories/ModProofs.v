(** Proofs about the modifier keys of events. *)
From Coq Require Import List NArith Bool Arith Lia String.
From Verif Require Import Base ModModel ModSpec.
Import ListNotations.
Local Open Scope N_scope.

Definition bit_of (m : modifier) : N :=
  match m with Control => 1 | Meta => 2 | Shift => 4 | Alt => 8 | AltGraph => 16 | CapsLock => 32 | NumLock => 64 | Scroll => 128 end.
Definition pos_of (m : modifier) : N :=
  match m with Control => 0 | Meta => 1 | Shift => 2 | Alt => 3 | AltGraph => 4 | CapsLock => 5 | NumLock => 6 | Scroll => 7 end.
Definition modifiers := [Control; Meta; Shift; Alt; AltGraph; CapsLock; NumLock; Scroll].

Lemma is_lit_iff : forall w s, is_lit w s = true <-> w = lit s.
Proof. intros w s. unfold is_lit. destruct (list_eq_dec N.eq_dec w (lit s)); split; congruence. Qed.

Lemma key_reads : forall st m prev, get_modifier_state st (Some (key_name m)) prev = has_bit st (bit_of m).
Proof. intros st m prev. destruct m; reflexivity. Qed.
Lemma unknown_key : forall st w prev, (forall m, w <> key_name m) -> get_modifier_state st (Some w) prev = prev.
Proof.
  intros st w prev H. cbn [get_modifier_state].
  assert (X : forall s m, lit s = key_name m -> is_lit w s = false).
  { intros s m E. destruct (is_lit w s) eqn:I; auto. apply is_lit_iff in I. exfalso. apply (H m). congruence. }
  rewrite (X "AltGraph"%string AltGraph eq_refl), (X "Alt"%string Alt eq_refl), (X "CapsLock"%string CapsLock eq_refl), (X "Control"%string Control eq_refl),
    (X "Meta"%string Meta eq_refl), (X "NumLock"%string NumLock eq_refl), (X "Scroll"%string Scroll eq_refl), (X "Shift"%string Shift eq_refl). reflexivity.
Qed.

Lemma bit_pos : forall m, bit_of m = 2 ^ pos_of m.
Proof. intros []; reflexivity. Qed.
Lemma has_bit_test : forall st m, has_bit st (bit_of m) = N.testbit st (pos_of m).
Proof.
  intros st m. rewrite bit_pos. unfold has_bit. destruct (N.testbit st (pos_of m)) eqn:T.
  - destruct (N.eqb_spec (N.land st (2 ^ pos_of m)) 0) as [E|]; auto. exfalso.
    assert (X : N.testbit (N.land st (2 ^ pos_of m)) (pos_of m) = false) by (rewrite E; apply N.bits_0).
    rewrite N.land_spec, T, N.pow2_bits_true in X. discriminate.
  - assert (E : N.land st (2 ^ pos_of m) = 0).
    { apply N.bits_inj. intros k. rewrite N.bits_0, N.land_spec. destruct (N.eq_dec k (pos_of m)) as [->|NE]; [rewrite T; auto|].
      rewrite N.pow2_bits_false by congruence. apply andb_false_r. }
    rewrite E. reflexivity.
Qed.
Lemma pos_inj : forall a b, pos_of a = pos_of b -> a = b.
Proof. intros [] []; cbn; congruence. Qed.
Lemma lor_bit : forall st a m, has_bit (N.lor st (bit_of a)) (bit_of m) = has_bit st (bit_of m) || (if N.eqb (pos_of a) (pos_of m) then true else false).
Proof.
  intros st a m. rewrite !has_bit_test, N.lor_spec. f_equal. rewrite bit_pos. destruct (N.eqb_spec (pos_of a) (pos_of m)) as [E|NE].
  - rewrite E. apply N.pow2_bits_true.
  - apply N.pow2_bits_false. auto.
Qed.
Lemma has_bit_0 : forall m, has_bit 0 (bit_of m) = false.
Proof. intros []; reflexivity. Qed.

(** ** Initialising *)
Lemma mouse_reads : forall st k m, reads (mouse_init st (k_ctrl k) (k_alt k) (k_shift k) (k_meta k)) m (asked k m).
Proof. intros st [c s a e] m prev. rewrite key_reads. destruct c, s, a, e, m; reflexivity. Qed.
Lemma keyboard_bits : forall st k m, has_bit (keyboard_init st (k_ctrl k) (k_shift k) (k_alt k) (k_meta k)) (bit_of m) = has_bit st (bit_of m) || asked k m.
Proof.
  intros st [c s a e] m. unfold keyboard_init. cbn [k_ctrl k_shift k_alt k_meta].
  change mod_ctrl with (bit_of Control). change mod_shift with (bit_of Shift). change mod_alt with (bit_of Alt). change mod_meta with (bit_of Meta).
  destruct c, s, a, e; rewrite ?lor_bit; destruct m; cbn [asked k_ctrl k_shift k_alt k_meta pos_of N.eqb Pos.eqb]; rewrite ?orb_true_r, ?orb_false_r; reflexivity.
Qed.
Lemma keyboard_any : forall l st m, has_bit (keyboard_after st l) (bit_of m) = has_bit st (bit_of m) || existsb (fun k => asked k m) l.
Proof.
  unfold keyboard_after. induction l as [|k l IH]; intros st m; cbn [fold_left existsb]; [rewrite orb_false_r; auto|].
  rewrite IH, keyboard_bits, orb_assoc. reflexivity.
Qed.
Lemma keyboard_history : forall l m b, reads (keyboard_after new_keyboard l) m b <-> (b = true <-> exists k, In k l /\ asked k m = true).
Proof.
  intros l m b. assert (E : forall prev, get_modifier_state (keyboard_after new_keyboard l) (Some (key_name m)) prev = existsb (fun k => asked k m) l).
  { intros prev. rewrite key_reads, keyboard_any. unfold new_keyboard. rewrite has_bit_0. reflexivity. }
  rewrite <- existsb_exists. split.
  - intros R. specialize (R true). rewrite E in R. rewrite R. tauto.
  - intros R prev. rewrite E. destruct b, (existsb (fun k => asked k m) l); auto; [apply R; auto|symmetry; apply R; auto].
Qed.
Lemma keyboard_once : forall k m, reads (keyboard_after new_keyboard [k]) m (asked k m).
Proof. intros k m prev. rewrite key_reads, keyboard_any. unfold new_keyboard. rewrite has_bit_0. cbn [existsb]. rewrite orb_false_r. reflexivity. Qed.
Lemma keyboard_sticks : forall st k m, reads st m true -> reads (keyboard_after st [k]) m true.
Proof. intros st k m R prev. rewrite key_reads, keyboard_any. specialize (R true). rewrite key_reads in R. rewrite R. reflexivity. Qed.
Lemma mouse_last : forall l k st m, reads (mouse_after st (l ++ [k])) m (asked k m).
Proof. intros l k st m. unfold mouse_after. rewrite fold_left_app. cbn [fold_left]. apply mouse_reads. Qed.
Lemma getters : forall st, (forall b, ctrl_key st = b <-> reads st Control b) /\ (forall b, shift_key st = b <-> reads st Shift b) /\
  (forall b, alt_key st = b <-> reads st Alt b) /\ (forall b, meta_key st = b <-> reads st Meta b).
Proof.
  intros st. repeat split; intros H; try (intros prev; rewrite key_reads; exact H); specialize (H true); rewrite key_reads in H; exact H.
Qed.

(** ** The list *)
Fixpoint words (w : list N) (l : list N) : list (list N) :=
  match l with
  | [] => [w]
  | c :: l => if c =? 32 then w :: words [] l else words (w ++ [c]) l
  end.
Definition adds (ws : list (list N)) (st : N) : N := fold_left (fun st w => add_token w st) ws st.
Lemma add_nothing : forall st, add_token [] st = st.
Proof. reflexivity. Qed.
Lemma skip_words : forall l st, adds (words [] l) st = adds (words [] (skip_blanks l)) st.
Proof.
  induction l as [|c l IH]; intros st; auto. destruct (N.eqb_spec c 32) as [->|NE].
  - cbn [skip_blanks words]. rewrite N.eqb_refl. unfold adds. cbn [fold_left]. rewrite add_nothing. apply IH.
  - assert (E : skip_blanks (c :: l) = c :: l).
    { cbn [skip_blanks]. destruct c as [|p]; auto. repeat (destruct p as [p|p|]; auto). congruence. }
    rewrite E. reflexivity.
Qed.
Lemma skip_le : forall l, (List.length (skip_blanks l) <= List.length l)%nat.
Proof.
  induction l as [|c l IH]; auto. destruct (N.eqb_spec c 32) as [->|NE]; [cbn [skip_blanks List.length]; lia|].
  assert (E : skip_blanks (c :: l) = c :: l).
  { cbn [skip_blanks]. destruct c as [|p]; auto. repeat (destruct p as [p|p|]; auto). congruence. }
  rewrite E. auto.
Qed.
Lemma skip_head : forall l, at_data (skip_blanks l) <> 32.
Proof.
  induction l as [|c l IH]; cbn; [discriminate|]. destruct (N.eqb_spec c 32) as [->|NE]; auto.
  assert (E : skip_blanks (c :: l) = c :: l).
  { cbn [skip_blanks]. destruct c as [|p]; auto. repeat (destruct p as [p|p|]; auto). congruence. }
  cbn [skip_blanks] in E. rewrite E. exact NE.
Qed.
Lemma skip_in : forall x l, In x (skip_blanks l) -> In x l.
Proof.
  induction l as [|c l IH]; auto. destruct (N.eqb_spec c 32) as [->|NE]; [cbn [skip_blanks]; right; auto|].
  assert (E : skip_blanks (c :: l) = c :: l).
  { cbn [skip_blanks]. destruct c as [|p]; auto. repeat (destruct p as [p|p|]; auto). congruence. }
  rewrite E. auto.
Qed.
Lemma loop_ok : forall f m len data st w, ~ In 0 data -> firstn len m = w -> m = w ++ data -> List.length w = len -> (List.length data < f)%nat ->
  modifier_loop f m len data st = Some (adds (words w data) st).
Proof.
  induction f as [|f IH]; intros m len data st w NZ F M L LF; [lia|]. cbn [modifier_loop]. destruct data as [|c data].
  - cbn [at_data N.eqb orb]. rewrite F. cbn [skip_blanks at_data]. rewrite N.eqb_refl. reflexivity.
  - cbn [at_data]. assert (C0 : (c =? 0) = false) by (apply N.eqb_neq; intros ->; apply NZ; left; auto). rewrite C0, orb_false_r.
    destruct (N.eqb_spec c 32) as [->|NE].
    + rewrite F. cbn [words]. rewrite N.eqb_refl. unfold adds at 1. cbn [fold_left]. fold (adds (words [] data) (add_token w st)). cbn [skip_blanks].
      rewrite skip_words. pose proof (skip_head data) as SH. pose proof (skip_le data) as SL.
      assert (SN : ~ In 0 (skip_blanks data)). { intros I. apply NZ. right. apply skip_in; auto. }
      destruct (skip_blanks data) as [|e r] eqn:SB.
      * cbn [at_data]. rewrite N.eqb_refl. reflexivity.
      * cbn [at_data tl]. assert (E0 : (e =? 0) = false) by (apply N.eqb_neq; intros ->; apply SN; left; auto). rewrite E0.
        rewrite (IH (e :: r) 1%nat r (add_token w st) [e]); auto.
        -- cbn [words]. assert (E32 : (e =? 32) = false) by (apply N.eqb_neq; exact SH). rewrite E32. reflexivity.
        -- intros I. apply SN. right; auto.
        -- cbn [List.length] in *. lia.
    + cbn [tl]. rewrite (IH m (S len) data st (w ++ [c])).
      * cbn [words]. apply N.eqb_neq in NE. rewrite NE. reflexivity.
      * intros I. apply NZ. right; auto.
      * subst m. replace (w ++ c :: data) with ((w ++ [c]) ++ data) by (rewrite <- app_assoc; reflexivity).
        assert (LW : List.length (w ++ [c]) = S len) by (rewrite app_length, L; cbn [List.length]; lia).
        rewrite <- LW, firstn_app, Nat.sub_diag, firstn_all. cbn [firstn]. apply app_nil_r.
      * subst m. rewrite <- app_assoc. reflexivity.
      * rewrite app_length. cbn. lia.
      * cbn [List.length] in LF. lia.
Qed.

Lemma add_token_bit : forall w st m, has_bit (add_token w st) (bit_of m) = has_bit st (bit_of m) || (if list_eq_dec N.eq_dec w (key_name m) then true else false).
Proof.
  intros w st m.
  assert (KI : forall a b, key_name a = key_name b -> a = b) by (intros [] []; cbn; congruence).
  assert (HIT : forall a, w = key_name a -> has_bit (N.lor st (bit_of a)) (bit_of m) = has_bit st (bit_of m) || (if list_eq_dec N.eq_dec w (key_name m) then true else false)).
  { intros a E. rewrite lor_bit. f_equal. destruct (N.eqb_spec (pos_of a) (pos_of m)) as [P|P]; destruct (list_eq_dec N.eq_dec w (key_name m)) as [Q|Q]; auto.
    - apply pos_inj in P. congruence.
    - exfalso. apply P. f_equal. apply KI. congruence. }
  unfold add_token.
  destruct (is_lit w "AltGraph") eqn:I1; [apply is_lit_iff in I1; apply (HIT AltGraph); exact I1|].
  destruct (is_lit w "Alt") eqn:I2; [apply is_lit_iff in I2; apply (HIT Alt); exact I2|].
  destruct (is_lit w "CapsLock") eqn:I3; [apply is_lit_iff in I3; apply (HIT CapsLock); exact I3|].
  destruct (is_lit w "Control") eqn:I4; [apply is_lit_iff in I4; apply (HIT Control); exact I4|].
  destruct (is_lit w "Meta") eqn:I5; [apply is_lit_iff in I5; apply (HIT Meta); exact I5|].
  destruct (is_lit w "NumLock") eqn:I6; [apply is_lit_iff in I6; apply (HIT NumLock); exact I6|].
  destruct (is_lit w "Scroll") eqn:I7; [apply is_lit_iff in I7; apply (HIT Scroll); exact I7|].
  destruct (is_lit w "Shift") eqn:I8; [apply is_lit_iff in I8; apply (HIT Shift); exact I8|].
  destruct (list_eq_dec N.eq_dec w (key_name m)) as [Q|Q]; [|rewrite orb_false_r; auto].
  exfalso. assert (X : forall s, is_lit w s = false -> w <> lit s) by (intros s E Z; apply is_lit_iff in Z; congruence).
  destruct m; [apply X in I4|apply X in I5|apply X in I8|apply X in I2|apply X in I1|apply X in I3|apply X in I6|apply X in I7]; contradiction.
Qed.
Lemma adds_bit : forall ws st m, has_bit (adds ws st) (bit_of m) = true <-> has_bit st (bit_of m) = true \/ In (key_name m) ws.
Proof.
  unfold adds. induction ws as [|w ws IH]; intros st m; cbn [fold_left In]; [tauto|].
  rewrite IH, add_token_bit. destruct (list_eq_dec N.eq_dec w (key_name m)) as [E|E]; rewrite ?orb_true_r, ?orb_false_r; intuition.
Qed.

(** The words found are the words there are. *)
Lemma words_split : forall l w x, ~ In 32 w -> In x (words w l) <->
  ~ In 32 x /\ ((exists c, x = w ++ c /\ (l = c \/ exists b, l = c ++ 32 :: b)) \/ exists a b, l = a ++ 32 :: x ++ b /\ (b = [] \/ exists b', b = 32 :: b')).
Proof.
  induction l as [|c l IH]; intros w x NW.
  - cbn [words In]. split.
    + intros [<-|[]]. split; auto. left. exists []. rewrite app_nil_r. auto.
    + intros [NX [(e & -> & [E|(b & E)])|(a & b & E & _)]].
      * subst e. left. rewrite app_nil_r. auto.
      * destruct e; discriminate.
      * destruct a; discriminate.
  - cbn [words]. destruct (N.eqb_spec c 32) as [->|NE].
    + cbn [In]. rewrite (IH [] x) by auto. split.
      * intros [<-|[NX H]].
        -- split; auto. left. exists []. rewrite app_nil_r. split; auto. right. exists l. auto.
        -- split; auto. right. destruct H as [(e & E & H)|(a & b & E & H)].
           ++ cbn [app] in E. subst e. destruct H as [H|(b & H)].
              ** exists [], []. rewrite app_nil_r. split; [cbn; congruence|auto].
              ** exists [], (32 :: b). split; [cbn; congruence|right; exists b; auto].
           ++ exists (32 :: a), b. split; [cbn; congruence|auto].
      * intros [NX [(e & -> & H)|(a & b & E & H)]].
        -- left. destruct e as [|e0 e]; [rewrite app_nil_r; auto|]. exfalso. apply NX. apply in_or_app. right. destruct H as [H|(b & H)]; injection H; intros; subst; left; auto.
        -- right. split; auto. destruct a as [|a0 a].
           ++ cbn in E. injection E as ->. left. exists x. split; auto. destruct H as [->|(b' & ->)]; [left; rewrite app_nil_r; auto|right; exists b'; auto].
           ++ cbn in E. injection E as <- ->. right. exists a, b. auto.
    + assert (NW' : ~ In 32 (w ++ [c])). { intros I. apply in_app_or in I. destruct I as [I|[I|[]]]; auto. }
      rewrite (IH _ _ NW'). split; intros [NX H]; split; auto.
      * destruct H as [(e & E & H)|(a & b & E & H)].
        -- left. exists (c :: e). split; [rewrite E, <- app_assoc; auto|]. destruct H as [H|(b & H)]; [left; congruence|right; exists b; cbn; congruence].
        -- right. exists (c :: a), b. split; [cbn; congruence|auto].
      * destruct H as [(e & E & H)|(a & b & E & H)].
        -- destruct e as [|e0 e].
           ++ destruct H as [H|(b & H)]; [discriminate|]. injection H. congruence.
           ++ left. exists e. split.
              ** rewrite E. destruct H as [H|(b & H)]; injection H; intros; subst; rewrite <- app_assoc; auto.
              ** destruct H as [H|(b & H)]; injection H; intros; subst; eauto.
        -- destruct a as [|a0 a]; cbn in E; injection E; intros; subst; [congruence|]. right. exists a, b. auto.
Qed.
Lemma words_iff : forall l x, x <> [] -> In x (words [] l) <-> word_of l x.
Proof.
  intros l x NE. rewrite words_split by (intros []). unfold word_of. split.
  - intros [NX H]. split; auto. split; auto. destruct H as [(e & E & H)|(a & b & E & H)].
    + cbn in E. subst e. destruct H as [H|(b & H)].
      * exists [], []. rewrite app_nil_r. cbn. auto.
      * exists [], (32 :: b). cbn. split; auto. split; auto. right. exists b; auto.
    + exists (a ++ [32]), b. rewrite <- app_assoc. cbn. split; auto. split; auto. right. exists a; auto.
  - intros (_ & NX & a & b & E & HA & HB). split; auto. destruct HA as [->|(a' & ->)].
    + left. exists x. split; auto. destruct HB as [->|(b' & ->)]; [left; cbn in E; rewrite app_nil_r in E; auto|right; exists b'; auto].
    + right. exists a', b. rewrite <- app_assoc in E. auto.
Qed.

Lemma parse_ok : forall l, ~ In 0 l -> exists st, parse_modifiers (Some l) = Some st /\ forall m b, reads st m b <-> (b = true <-> word_of l (key_name m)).
Proof.
  intros l NZ. exists (adds (words [] l) 0). split.
  - unfold parse_modifiers. apply loop_ok; auto.
  - intros m b. rewrite <- words_iff by (destruct m; discriminate).
    assert (E : has_bit (adds (words [] l) 0) (bit_of m) = true <-> In (key_name m) (words [] l)). { rewrite adds_bit, has_bit_0. intuition discriminate. }
    rewrite <- E. unfold reads. split.
    + intros R. specialize (R true). rewrite key_reads in R. rewrite R. tauto.
    + intros R prev. rewrite key_reads. destruct b, (has_bit (adds (words [] l) 0) (bit_of m)); auto; [apply R; auto|symmetry; apply R; auto].
Qed.
Lemma loop_total : forall f m len data st, (List.length data < f)%nat -> exists r, modifier_loop f m len data st = Some r.
Proof.
  induction f as [|f IH]; intros m len data st L; [lia|]. cbn [modifier_loop]. destruct ((at_data data =? 32) || (at_data data =? 0)) eqn:C.
  - pose proof (skip_le data) as SL. destruct (at_data (skip_blanks data) =? 0) eqn:Z; eauto. apply IH. destruct (skip_blanks data); cbn [List.length tl] in *; [discriminate|lia].
  - apply IH. destruct data; cbn [List.length tl] in *; [discriminate|lia].
Qed.
Lemma wheel_forgets : forall st l, exists st', wheel_init st l = Some st' /\ forall m, reads st' m false.
Proof.
  intros st l. unfold wheel_init. assert (E : exists r, parse_modifiers l = Some r).
  { destruct l as [d|]; [|eexists; reflexivity]. apply loop_total. lia. }
  destruct E as [r ->]. exists 0. split; [reflexivity|]. intros m prev. rewrite key_reads. apply has_bit_0.
Qed.
