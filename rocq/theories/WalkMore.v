(** The theorems about walks in their final form. *)
From Coq Require Import List Arith NArith Bool Lia.
From Verif Require Import Base HeapModel HeapSpec HistModel TreeSpec WalkModel WalkSpec WalkProofs WalkLists WalkFinds WalkTree WalkText WalkReach.
Import ListNotations.

Lemma reach_states : forall k s g, reach k s g -> short k -> linked s /\ counted s.
Proof. intros k s g R SH. split; [eapply reach_linked; eauto|eapply reach_counted; eauto]. Qed.

Lemma desc_filter : forall s, linked s -> forall root (P : node -> Prop) (b : node -> bool) k,
  (forall n, b n = true <-> P n) -> descendants (s_heap s) root P k ->
  exists ds, order (s_heap s) root (root :: ds) /\ k = filter (selb (s_heap s) b) ds.
Proof.
  intros s L root P b k E (ds & O & PK). exists ds. split; auto.
  apply (picks_filter _ (fun i => exists n, s_heap s i = Some n /\ P n) (selb (s_heap s) b)); auto.
  intros x _. unfold selb. destruct (s_heap s x) as [n|].
  - rewrite E. split; [intros Q; exists n; auto|]. intros (m & A & B). congruence.
  - split; [discriminate|]. intros (m & A & _). discriminate.
Qed.

Lemma by_tag_name : forall s, linked s -> counted s -> forall caseless root name k,
  below_count (s_heap s) root -> descendants (s_heap s) root (has_tag caseless name) k ->
  list_length (list_by_name caseless root name) s = Ok (N.of_nat (length k)) s /\
  forall index, (index + 1 < two32)%N -> exists s',
    list_item (list_by_name caseless root name) index s = Ok (nth_error k (N.to_nat index)) s' /\
    answered s (nth_error k (N.to_nat index)) s'.
Proof.
  intros s L C caseless root name k B D.
  destruct (desc_filter s L root (has_tag caseless name) (len_counts (list_by_name caseless root name)) k) with (2 := D) as (ds & O & K).
  { intros n. apply by_name_counts. }
  apply (tree_list s L C (list_by_name caseless root name) ds k k); auto.
  - destruct caseless; discriminate.
  - rewrite K. apply filter_ext. intros x. unfold selb. destruct (s_heap s x); auto. symmetry. apply by_name_counts.
Qed.

Lemma by_namespace_gen : forall s, linked s -> counted s -> forall caseless root ns local k,
  below_count (s_heap s) root -> descendants (s_heap s) root (has_ns_tag caseless ns local) k ->
  list_length (list_by_ns caseless root ns local) s = Ok (N.of_nat (length k)) s /\
  (no_null ns <> [] -> forall index, (index + 1 < two32)%N -> exists s',
    list_item (list_by_ns caseless root ns local) index s = Ok (nth_error k (N.to_nat index)) s' /\
    answered s (nth_error k (N.to_nat index)) s').
Proof.
  intros s L C caseless root ns local k B D.
  destruct (desc_filter s L root (has_ns_tag caseless ns local) (len_counts (list_by_ns caseless root ns local)) k) with (2 := D) as (ds & O & K).
  { intros n. apply by_ns_counts. }
  split.
  - apply (tree_list s L C (list_by_ns caseless root ns local) ds k (filter (selb (s_heap s) (item_counts (list_by_ns caseless root ns local))) ds)); auto.
    destruct caseless; discriminate.
  - intros NE. apply (tree_list s L C (list_by_ns caseless root ns local) ds k k); auto.
    + destruct caseless; discriminate.
    + rewrite K. apply filter_ext. intros x. unfold selb. destruct (s_heap s x); auto. symmetry. apply by_ns_counts; auto.
Qed.
Lemma by_namespace : forall s, linked s -> counted s -> forall caseless root ns local k,
  no_null ns <> [] -> below_count (s_heap s) root -> descendants (s_heap s) root (has_ns_tag caseless ns local) k ->
  list_length (list_by_ns caseless root ns local) s = Ok (N.of_nat (length k)) s /\
  forall index, (index + 1 < two32)%N -> exists s',
    list_item (list_by_ns caseless root ns local) index s = Ok (nth_error k (N.to_nat index)) s' /\
    answered s (nth_error k (N.to_nat index)) s'.
Proof. intros s L C c root ns local k NE B D. destruct (by_namespace_gen s L C c root ns local k B D); auto. Qed.
Lemma by_namespace_length : forall s, linked s -> counted s -> forall caseless root ns local k,
  below_count (s_heap s) root -> descendants (s_heap s) root (has_ns_tag caseless ns local) k ->
  list_length (list_by_ns caseless root ns local) s = Ok (N.of_nat (length k)) s.
Proof. intros s L C c root ns local k B D. apply (by_namespace_gen s L C c root ns local k B D). Qed.

Lemma visits_unique : forall h m cb l tr tr1 tr2 b1 b2,
  visits h m cb l tr tr1 b1 -> visits h m cb l tr tr2 b2 -> tr1 = tr2 /\ b1 = b2.
Proof. intros h m cb l tr tr1 tr2 b1 b2 V1 V2. eapply (proj2 (visits_det h m cb)); eauto. Qed.

Lemma containers_text : forall s, linked s -> forall i n ds vs,
  s_heap s i = Some n -> n_type n = ELEMENT \/ n_type n = FRAGMENT \/ n_type n = ENTITY_REFERENCE \/ n_type n = ATTRIBUTE ->
  order (s_heap s) i (i :: ds) -> texts (s_heap s) ds vs ->
  get_text_content i s = Ok (joined vs) s.
Proof.
  intros s L i n ds vs H T. apply (text_content s L i n); auto. destruct T as [T|[T|[T|T]]]; rewrite T; reflexivity.
Qed.
