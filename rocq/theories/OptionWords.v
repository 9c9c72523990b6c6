(** White space: what dom_string_whitespace_op makes of a text. *)
From Coq Require Import List Arith NArith Bool Lia.
From Verif Require Import Base StringModel OptionSpec.
Import ListNotations.

Local Arguments white : simpl never.
Definition squeeze (b : bytes) : bytes := strip_end (copy_loop true false (skip_ws b)).

Lemma is_white c : is_ws c = white c.
Proof. unfold is_ws, white. cbn [existsb]. rewrite orb_false_r. repeat rewrite <- orb_assoc. reflexivity. Qed.

(** ** Words *)
Lemma pieces_some b : exists w ws, pieces b = w :: ws.
Proof. destruct b as [|c r]; cbn [pieces]; eauto. destruct (white c); eauto. destruct (pieces r); eauto. Qed.
Lemma pieces_gap w a r : white w = true -> pieces (a ++ w :: r) = pieces a ++ pieces r.
Proof.
  intro W. induction a as [|c a IH]; cbn [app pieces]; [rewrite W; reflexivity|]. destruct (white c); [rewrite IH; reflexivity|].
  destruct (pieces_some a) as (x & xs & E). rewrite IH, E. reflexivity.
Qed.
Lemma words_gap w a r : white w = true -> words (a ++ w :: r) = words a ++ words r.
Proof. intro W. unfold words. rewrite (pieces_gap w a r W), filter_app. reflexivity. Qed.
Lemma words_white w r : white w = true -> words (w :: r) = words r.
Proof. intro W. exact (words_gap w [] r W). Qed.
Lemma words_whites ws r : forallb white ws = true -> words (ws ++ r) = words r.
Proof. induction ws as [|w ws IH]; cbn [forallb app]; auto. intro H. apply andb_prop in H as [A B]. rewrite words_white; auto. Qed.
Lemma words_end ws r : forallb white ws = true -> words (r ++ ws) = words r.
Proof.
  destruct ws as [|w ws]; cbn [forallb]; [rewrite app_nil_r; auto|]. intro H. apply andb_prop in H as [A B]. rewrite (words_gap w r ws A).
  rewrite <- (app_nil_r ws), (words_whites ws [] B). apply app_nil_r.
Qed.
Lemma concat_pieces b : concat (pieces b) = letters b.
Proof.
  unfold letters. induction b as [|c r IH]; auto. cbn [pieces filter]. destruct (white c); cbn [negb]; [exact IH|].
  destruct (pieces_some r) as (w & ws & E). rewrite E in *. rewrite <- IH. reflexivity.
Qed.
Lemma letters_words b : concat (words b) = letters b.
Proof.
  rewrite <- concat_pieces. unfold words. induction (pieces b) as [|w ws IH]; auto. cbn [filter concat]. destruct w; cbn; rewrite <- IH; reflexivity.
Qed.

(** ** Squeezing keeps the words *)
Lemma copy_words s : forall a c,
  words (a ++ copy_loop true false s ++ c) = words (a ++ s ++ c) /\
  (forall w, white w = true -> words (a ++ w :: copy_loop true true s ++ c) = words (a ++ w :: s ++ c)).
Proof.
  assert (W32 : white 32 = true) by reflexivity.
  induction s as [|x s IH]; intros a c; [split; auto|]. cbn [copy_loop andb]. rewrite is_white. destruct (white x) eqn:X.
  - cbn [app]. split.
    + rewrite (proj2 (IH a c) 32%N W32). rewrite !words_gap; auto.
    + intros w W. rewrite (proj2 (IH a c) w W). rewrite !(words_gap w); auto. rewrite words_white; auto.
  - cbn [app]. split.
    + pose proof (proj1 (IH (a ++ [x]) c)) as Q. rewrite <- !app_assoc in Q. exact Q.
    + intros w W. pose proof (proj1 (IH (a ++ [w; x]) c)) as Q. rewrite <- !app_assoc in Q. exact Q.
Qed.
Lemma skip_split s : exists ws, s = ws ++ skip_ws s /\ forallb white ws = true.
Proof.
  induction s as [|c s (ws & E & W)]; [exists []; auto|]. cbn [skip_ws]. rewrite is_white. destruct (white c) eqn:C; [|exists []; auto].
  exists (c :: ws). cbn. rewrite C, W, <- E. auto.
Qed.
Lemma forallb_rev (f : N -> bool) l : forallb f (rev l) = forallb f l.
Proof. induction l; cbn; auto. rewrite forallb_app, IHl. cbn. rewrite andb_true_r. apply andb_comm. Qed.
Lemma strip_split s : exists ws, s = strip_end s ++ ws /\ forallb white ws = true.
Proof.
  destruct (skip_split (rev s)) as (ws & E & W). exists (rev ws). unfold strip_end. rewrite forallb_rev, W. split; auto.
  rewrite <- rev_app_distr, <- E, rev_involutive. reflexivity.
Qed.
Lemma words_squeeze b : words (squeeze b) = words b.
Proof.
  unfold squeeze. destruct (skip_split b) as (u & E & W). destruct (strip_split (copy_loop true false (skip_ws b))) as (v & F & V).
  transitivity (words (skip_ws b)); [|rewrite E at 2; rewrite words_whites; auto].
  rewrite <- (words_end v _ V), <- F. pose proof (proj1 (copy_words (skip_ws b) [] [])) as Q. cbn [app] in Q. rewrite !app_nil_r in Q. exact Q.
Qed.

(** ** What is squeezed is tidy *)
Inductive neat : bytes -> Prop :=
| neat_one c : white c = false -> neat [c]
| neat_more c r : white c = false -> neat r -> neat (c :: r)
| neat_gap c r : white c = false -> neat r -> neat (c :: 32%N :: r).

Lemma words_cons c x r : white c = false -> white x = false -> exists w ws, words (x :: r) = w :: ws /\ words (c :: x :: r) = (c :: w) :: ws.
Proof.
  intros C X. unfold words. cbn [pieces]. rewrite C, X. destruct (pieces_some r) as (w & ws & E). rewrite E. cbn. eauto.
Qed.
Lemma neat_head r : neat r -> exists x t, r = x :: t /\ white x = false.
Proof. destruct 1; eauto. Qed.
Lemma spaced_cons c w ws : spaced ((c :: w) :: ws) = c :: spaced (w :: ws).
Proof. destruct ws; reflexivity. Qed.
Lemma neat_tidy t : neat t -> tidy t = t.
Proof.
  unfold tidy. induction 1 as [c C|c r C R IH|c r C R IH].
  - unfold words. cbn. rewrite C. reflexivity.
  - destruct (neat_head r R) as (x & t & -> & X). destruct (words_cons c x t C X) as (w & ws & E & F). rewrite E in IH. rewrite F, spaced_cons. f_equal. exact IH.
  - destruct (neat_head r R) as (x & t & -> & X). change (c :: 32%N :: x :: t) with ([c] ++ 32%N :: x :: t). rewrite words_gap; auto.
    assert (E : words [c] = [[c]]) by (unfold words; cbn; rewrite C; reflexivity). rewrite E. cbn [app].
    assert (Q : exists w ws, words (x :: t) = w :: ws). { unfold words. cbn [pieces]. rewrite X. destruct (pieces t); cbn; eauto. }
    destruct Q as (w & ws & F). rewrite F in *. change (spaced ([c] :: w :: ws)) with (c :: 32%N :: spaced (w :: ws)). rewrite IH. reflexivity.
Qed.
Lemma strip_keep c t : white c = false -> strip_end (c :: t) = c :: strip_end t.
Proof.
  intro C. unfold strip_end. cbn [rev]. destruct (skip_split (rev t)) as (ws & E & W).
  assert (Q : forall u v, forallb white u = true -> (skip_ws (u ++ v)) = skip_ws v).
  { induction u; cbn; auto. intros v H. apply andb_prop in H as [A B]. rewrite is_white, A. auto. }
  assert (Z : forall u, skip_ws (skip_ws u) = skip_ws u). { induction u; cbn; auto. destruct (is_ws a) eqn:A; auto. cbn. rewrite A. reflexivity. }
  rewrite E at 1. rewrite <- app_assoc, (Q ws _ W).
  assert (Y : forall u, skip_ws u = u -> skip_ws (u ++ [c]) = u ++ [c]).
  { intros [|x u] H; cbn in *; [rewrite is_white, C; auto|]. destruct (is_ws x) eqn:X; auto. exfalso.
    assert (L : forall z, length (skip_ws z) <= length z). { induction z; cbn; auto. destruct (is_ws a); cbn; lia. }
    specialize (L u). rewrite H in L. cbn in L. lia. }
  rewrite (Y _ (Z (rev t))), rev_app_distr. reflexivity.
Qed.
Lemma strip_full c t : neat (strip_end t) -> strip_end (c :: t) = c :: strip_end t.
Proof.
  intro H. unfold strip_end in *. cbn [rev]. assert (NE : skip_ws (rev t) <> []) by (intros E; rewrite E in H; inversion H).
  assert (Y : forall u, skip_ws u <> [] -> skip_ws (u ++ [c]) = skip_ws u ++ [c]). { induction u; cbn; [congruence|]. destruct (is_ws a); auto. }
  rewrite (Y _ NE), rev_app_distr. reflexivity.
Qed.
Lemma copy_run s : copy_loop true true s = copy_loop true false (skip_ws s).
Proof. induction s as [|c s IH]; auto. cbn [copy_loop andb skip_ws]. destruct (is_ws c) eqn:C; auto. cbn. rewrite C. reflexivity. Qed.
Lemma skip_len s : length (skip_ws s) <= length s.
Proof. induction s as [|c s IH]; cbn; auto. destruct (is_ws c); cbn; lia. Qed.
Lemma skip_head s c r : skip_ws s = c :: r -> white c = false.
Proof. induction s as [|x s IH]; cbn; [discriminate|]. rewrite is_white. destruct (white x) eqn:X; auto. intro E. injection E as -> ->. auto. Qed.
Lemma copy_neat : forall m c r, length r <= m -> white c = false -> neat (strip_end (copy_loop true false (c :: r))).
Proof.
  induction m as [|m IH]; intros c r L C; cbn [copy_loop andb]; rewrite is_white, C; rewrite strip_keep; auto.
  - destruct r; [|cbn in L; lia]. cbn. apply neat_one; auto.
  - destruct r as [|x r]; [cbn; apply neat_one; auto|]. cbn [length] in L. destruct (white x) eqn:X.
    + cbn [copy_loop andb]. rewrite is_white, X. rewrite copy_run. destruct (skip_ws r) as [|y t] eqn:E; [cbn; apply neat_one; auto|].
      pose proof (skip_head r y t E) as Y. pose proof (skip_len r) as LR. rewrite E in LR. cbn in LR.
      assert (N : neat (strip_end (copy_loop true false (y :: t)))) by (apply IH; auto; lia).
      rewrite (strip_full 32%N _ N). apply neat_gap; auto.
    + apply neat_more; auto. apply IH; auto. lia.
Qed.
Theorem squeeze_tidy b : squeeze b = tidy b.
Proof.
  assert (Q : tidy (squeeze b) = squeeze b).
  { unfold squeeze. destruct (skip_ws b) as [|c r] eqn:E; [reflexivity|]. apply neat_tidy. apply (copy_neat (length r)); auto. apply (skip_head b c r E). }
  rewrite <- Q. unfold tidy. rewrite words_squeeze. reflexivity.
Qed.
Lemma words_tidy b : words (tidy b) = words b.
Proof. rewrite <- squeeze_tidy. apply words_squeeze. Qed.
Lemma letters_tidy b : letters (tidy b) = letters b.
Proof. rewrite <- !letters_words, words_tidy. reflexivity. Qed.
Lemma tidy_twice b : tidy (tidy b) = tidy b.
Proof. unfold tidy at 1. rewrite words_tidy. reflexivity. Qed.

(** ** Texts that can stand for each other *)
Definition same (x y : bytes) : Prop := forall a c, words (a ++ x ++ c) = words (a ++ y ++ c).
Lemma same_refl x : same x x. Proof. intros a c. reflexivity. Qed.
Lemma same_app x y x' y' : same x y -> same x' y' -> same (x ++ x') (y ++ y').
Proof.
  intros A B a c. rewrite <- (app_assoc x), <- (app_assoc y). rewrite (A a (x' ++ c)). pose proof (B (a ++ y) c) as Q. rewrite <- !app_assoc in Q. exact Q.
Qed.
Lemma same_tidy x y : same x y -> tidy x = tidy y.
Proof. intro S. pose proof (S [] []) as Q. cbn [app] in Q. rewrite !app_nil_r in Q. unfold tidy. rewrite Q. reflexivity. Qed.
Lemma same_trans x y z : same x y -> same y z -> same x z.
Proof. intros A B a c. rewrite (A a c). apply B. Qed.
Lemma skip_trim b : trim b -> skip_ws b = b.
Proof. intros [A _]. destruct b as [|c r]; auto. cbn. rewrite is_white, (A c r eq_refl). reflexivity. Qed.
Lemma copy_last s : forall run c, white c = false -> exists t, copy_loop true run (s ++ [c]) = t ++ [c].
Proof.
  induction s as [|x s IH]; intros run c C; cbn [app copy_loop andb]; rewrite is_white.
  - rewrite C. exists []. reflexivity.
  - destruct (white x); [destruct run|]; destruct (IH true c C) as (t & E); destruct (IH false c C) as (u & F); [exists t; auto|exists (32%N :: t); rewrite E; auto|exists (x :: u); rewrite F; auto].
Qed.
Lemma trim_same b : trim b -> same (tidy b) b.
Proof.
  intros T a c. rewrite <- squeeze_tidy. unfold squeeze. rewrite (skip_trim b T). destruct T as [T1 T2].
  destruct (rev b) as [|x r] eqn:E. { apply (f_equal (@rev N)) in E. rewrite rev_involutive in E. subst b. reflexivity. }
  apply (f_equal (@rev N)) in E. rewrite rev_involutive in E. cbn in E. pose proof (T2 _ _ E) as X. destruct (copy_last (rev r) false x X) as (t & F). rewrite <- E in F.
  assert (S : strip_end (copy_loop true false b) = copy_loop true false b).
  { rewrite F. unfold strip_end. rewrite rev_app_distr. cbn. rewrite is_white, X. cbn. rewrite rev_involutive. reflexivity. }
  rewrite S. apply (proj1 (copy_words b a c)).
Qed.
