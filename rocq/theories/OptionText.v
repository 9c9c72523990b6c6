(** The text of an option and what is written below it. *)
From Coq Require Import List Arith NArith Bool Lia.
From Verif Require Import Base HeapModel HeapSpec HeapInv HeapTree HistModel TreeSpec StringModel
  WalkModel WalkSpec WalkProofs WalkLists WalkText WalkReach HtmlModel HtmlSpec OptionModel OptionSpec OptionWords OptionProofs.
Import ListNotations.

Lemma skipped_iff : forall n, skipped n = true <-> script n.
Proof.
  intros n. unfold skipped, script. rewrite andb_true_iff, orb_true_iff, !caseless_iff. reflexivity.
Qed.

Lemma shown_cons : forall h x l vs, shown h (x :: l) vs -> exists v w, vs = v ++ w /\ shown h [x] v /\ shown h l w.
Proof.
  intros h x l vs S. inversion S as [|i n v l0 w A B C D|i n l0 w A B C D|i n l0 w A B D|i n k ws l0 w A B C D E F]; subst.
  - exists [v], w. split; auto. split; auto. eapply sh_text; eauto. constructor.
  - exists [], vs. split; auto. split; auto. eapply sh_null; eauto. constructor.
  - exists [], vs. split; auto. split; auto. eapply sh_skip; eauto. constructor.
  - exists ws, w. split; auto. split; auto. rewrite <- (app_nil_r ws). eapply sh_inside; eauto. constructor.
Qed.

(** [r] has the letters of [vs]; it can stand for [vs] if [q]. *)
Definition agrees (q : Prop) (r : option bytes) (vs : list bytes) : Prop :=
  (r = None <-> vs = []) /\ letters (no_null r) = letters (concat vs) /\ (q -> same (no_null r) (concat vs)).
Lemma letters_app : forall a b, letters (a ++ b) = letters a ++ letters b.
Proof. intros. apply filter_app. Qed.
Lemma no_null_comb : forall a b, no_null (comb a b) = no_null a ++ no_null b.
Proof. intros [a|] [b|]; cbn; rewrite ?app_nil_r; reflexivity. Qed.
Lemma agrees_app : forall q a b v w, agrees q a v -> agrees q b w -> agrees q (comb a b) (v ++ w).
Proof.
  intros q a b v w (A1 & A2 & A3) (B1 & B2 & B3). split; [|split].
  - split; [intro E; destruct a, b; try discriminate; rewrite (proj1 A1 eq_refl), (proj1 B1 eq_refl); reflexivity|].
    intro E. apply app_eq_nil in E as [E1 E2]. rewrite (proj2 A1 E1), (proj2 B1 E2). reflexivity.
  - rewrite no_null_comb, concat_app, !letters_app, A2, B2. reflexivity.
  - intro Q. rewrite no_null_comb, concat_app. apply same_app; auto.
Qed.
Lemma agrees_none : forall q, agrees q None [].
Proof. intros q. split; [tauto|]. split; [reflexivity|]. intros _. apply same_refl. Qed.

(** The elements below are trim. *)
Definition trims (h : heap) (l : list id) : Prop :=
  forall j n ws, In j l -> h j = Some n -> n_type n = ELEMENT -> ~ script n -> shows h j ws -> trim (concat ws).

Section Shown.
  Variable s : st.
  Hypothesis L : linked s.
  Let h := s_heap s.

  Definition shows_tree (t : rose) : Prop := tr h t -> forall vs, shown h [root t] vs -> agrees (trims h (pre t)) (contrib h t) vs.

  Lemma agrees_weaken : forall (p q : Prop) r vs, (q -> p) -> agrees p r vs -> agrees q r vs.
  Proof. intros p q r vs H (A & B & C). split; auto. Qed.
  Lemma trims_sub : forall a b, (forall j, In j a -> In j b) -> trims h b -> trims h a.
  Proof. intros a b S T j n ws I. apply T. auto. Qed.

  Lemma shows_trees : forall ks, Forall shows_tree ks -> Forall (tr h) ks -> forall vs, shown h (map root ks) vs ->
    agrees (trims h (flat_map pre ks)) (sum (map (contrib h) ks)) vs.
  Proof.
    induction ks as [|t ks IH]; intros FS FT vs S; cbn [map] in *.
    - inversion S; subst. apply agrees_none.
    - inversion FS as [|? ? G FS']; subst. inversion FT as [|? ? R FT']; subst. destruct (shown_cons _ _ _ _ S) as (v & w & -> & S1 & S2).
      rewrite sum_cons. cbn [flat_map]. apply agrees_app.
      + eapply agrees_weaken; [|apply G; auto]. apply trims_sub. intros j I. apply in_or_app; auto.
      + eapply agrees_weaken; [|apply IH; auto]. apply trims_sub. intros j I. apply in_or_app; auto.
  Qed.

  Lemma shows_tree_all : forall t, shows_tree t.
  Proof.
    intros t. induction t as [i ats ks _ IH] using rose_ind2. intros R vs S. cbn [root] in S. cbn [contrib]. unfold adds.
    pose proof (tr_children _ _ _ _ R) as CH. destruct (tr_inv _ _ _ _ R) as (m & A & _ & _ & C & _ & F). rewrite A.
    inversion S as [|i' n v l0 w B TY V D E1 E2|i' n l0 w B TY V D E1 E2|i' n l0 w B TY D E1 E2|i' n k ws l0 w B TY NS CK SK D E1 E2]; subst; inversion D; subst;
      assert (m = n) by congruence; subst m.
    - assert (Q : match n_type n with COMMENT | PI => None | ELEMENT => if skipped n then None else option_map squeeze (sum (map (contrib h) ks))
           | TEXT | CDATA => n_value n | DOCUMENT | DOCTYPE => None | _ => joined (tvals h (flat_map pre ks)) end = Some v) by (destruct TY as [-> | ->]; auto).
      rewrite Q. split; [split; discriminate|]. cbn. rewrite app_nil_r. split; auto. intros _. apply same_refl.
    - assert (Q : match n_type n with COMMENT | PI => None | ELEMENT => if skipped n then None else option_map squeeze (sum (map (contrib h) ks))
           | TEXT | CDATA => n_value n | DOCUMENT | DOCTYPE => None | _ => joined (tvals h (flat_map pre ks)) end = None) by (destruct TY as [-> | ->]; auto).
      rewrite Q. apply agrees_none.
    - assert (Q : match n_type n with COMMENT | PI => None | ELEMENT => if skipped n then None else option_map squeeze (sum (map (contrib h) ks))
           | TEXT | CDATA => n_value n | DOCUMENT | DOCTYPE => None | _ => joined (tvals h (flat_map pre ks)) end = None).
      { destruct TY as [-> |[-> |[-> SC]]]; auto. rewrite (proj2 (skipped_iff n) SC). reflexivity. }
      rewrite Q. apply agrees_none.
    - rewrite TY. assert (SK' : skipped n = false). { destruct (skipped n) eqn:X; auto. exfalso. apply NS. apply skipped_iff. exact X. }
      rewrite SK', app_nil_r. rewrite (children_det _ _ _ _ CK CH) in SK.
      destruct (shows_trees ks IH F ws SK) as (G1 & G2 & G3). split; [|split].
      + rewrite <- G1. destruct (sum (map (contrib h) ks)); cbn; split; intro X; congruence || discriminate.
      + rewrite <- G2. destruct (sum (map (contrib h) ks)) as [b|]; cbn; auto. rewrite squeeze_tidy. apply letters_tidy.
      + intros T. assert (TR : trim (concat ws)). { apply (T i n ws); auto; [left; auto|]. exists (map root ks). auto. }
        assert (SM : same (no_null (sum (map (contrib h) ks))) (concat ws)). { apply G3. eapply trims_sub; [|exact T]. intros j I. cbn [pre]. right; auto. }
        destruct (sum (map (contrib h) ks)) as [b|] eqn:SB; [|exact SM]. cbn [option_map no_null] in *. rewrite squeeze_tidy.
        rewrite (same_tidy _ _ SM). apply trim_same. exact TR.
  Qed.

  (** ** The text *)
  Variables (e : id) (n : node) (vs : list bytes).
  Hypothesis H : h e = Some n.
  Hypothesis TY : n_type n = ELEMENT.
  Hypothesis S : shows h e vs.

  Lemma text_tree : exists ats ks, tr h (T e ats ks) /\ agrees (trims h (flat_map pre ks)) (sum (map (contrib h) ks)) vs.
  Proof.
    destruct (linked_tree _ L e) as ([j ats ks] & R & E); [exists n; auto|]. cbn in E. subst j. exists ats, ks. split; auto.
    destruct S as (l & C & SH). rewrite (children_det _ _ _ _ C (tr_children _ _ _ _ R)) in SH. destruct (tr_inv _ _ _ _ R) as (m & _ & _ & _ & _ & _ & F).
    apply shows_trees; auto. apply Forall_forall. intros t _. apply shows_tree_all.
  Qed.

  Theorem text_letters : exists r, option_text e s = Ok r s /\ (r = None <-> vs = []) /\ letters (no_null r) = letters (concat vs) /\ tidy (no_null r) = no_null r.
  Proof.
    destruct text_tree as (ats & ks & R & A1 & A2 & A3). rewrite (option_text_tree s L e n ats ks H TY R). eexists. split; [reflexivity|]. rewrite <- A1, <- A2. fold h.
    destruct (sum (map (contrib h) ks)) as [b|]; cbn [option_map no_null].
    - split; [split; discriminate|]. rewrite squeeze_tidy, letters_tidy, tidy_twice. auto.
    - split; [tauto|]. auto.
  Qed.
  Theorem text_exact : (forall ds, order h e (e :: ds) -> trims h ds) -> option_text e s = Ok (match vs with [] => None | _ => Some (tidy (concat vs)) end) s.
  Proof.
    intros T. destruct text_tree as (ats & ks & R & A1 & A2 & A3). rewrite (option_text_tree s L e n ats ks H TY R). fold h.
    pose proof (tr_order h _ R) as O. cbn [root pre] in O. specialize (A3 (T _ O)).
    destruct (sum (map (contrib h) ks)) as [b|] eqn:SB; cbn [option_map].
    - cbn [no_null] in A3. destruct vs as [|v w]; [pose proof (proj2 A1 eq_refl); discriminate|]. rewrite squeeze_tidy. rewrite (same_tidy _ _ A3). reflexivity.
    - rewrite (proj1 A1 eq_refl). reflexivity.
  Qed.
End Shown.

(** ** In every history *)
Section Reach.
  Variables (j : nat) (s : st) (g : client) (e : id) (vs : list bytes).
  Hypothesis RE : reach j s g.
  Hypothesis B : short j.
  Hypothesis TY : type_of (s_heap s) e = Some ELEMENT.
  Hypothesis S : shows (s_heap s) e vs.
  Lemma reach_letters : exists r, option_text e s = Ok r s /\ (r = None <-> vs = []) /\ letters (no_null r) = letters (concat vs) /\ tidy (no_null r) = no_null r.
  Proof.
    unfold type_of in TY. destruct (s_heap s e) as [n|] eqn:H; [|discriminate]. cbn in TY. injection TY as T. apply (text_letters s (reach_linked _ _ _ RE B) e n vs H T S).
  Qed.
  Lemma reach_exact : forall ds, order (s_heap s) e (e :: ds) ->
    (forall i n ws, In i ds -> s_heap s i = Some n -> n_type n = ELEMENT -> ~ script n -> shows (s_heap s) i ws -> trim (concat ws)) ->
    option_text e s = Ok (match vs with [] => None | _ => Some (tidy (concat vs)) end) s.
  Proof.
    unfold type_of in TY. destruct (s_heap s e) as [n|] eqn:H; [|discriminate]. cbn in TY. injection TY as T. intros ds O TR.
    apply (text_exact s (reach_linked _ _ _ RE B) e n vs H T S). intros ds' O'. destruct (linked_tree _ (reach_linked _ _ _ RE B) e) as (t & R & E); [exists n; auto|]. subst e.
    pose proof (order_pre _ _ R _ O) as Q. pose proof (order_pre _ _ R _ O') as Q'. assert (ds' = ds) by congruence. subst ds'. exact TR.
  Qed.
End Reach.
