(** Theorems about character data and text nodes (C31 to C33).

    They are stated for the nodes that may be edited ([editable]);
    [text_nodes_editable] says that every text node a careful client holds is one
    unless it lies inside an entity. *)
From Coq Require Import List Arith NArith Bool.
From Verif Require Import Base StringSpec HeapModel HeapSpec HistModel TreeSpec WalkModel WalkSpec CharDataModel CharDataSpec
  CharDataProofs CharDataText CharDataWitness.
Import ListNotations.
Local Open Scope N_scope.

Theorem text_nodes_editable : forall k s g, reach k s g -> short k -> forall i, holds g i -> data_node (s_heap s) i ->
  ~ read_only (s_heap s) i -> editable s i.
Proof. exact reach_editable. Qed.

(** ** C31 *)
Theorem C31_length : forall s i cs, says (s_heap s) i cs -> text cs -> data_length i s = Ok (N.of_nat (length cs)) s.
Proof. exact length_ok. Qed.

Theorem C31_substring : forall s i cs, editable s i -> says (s_heap s) i cs -> text cs ->
  forall o c, o < half /\ o <= N.of_nat (length cs) -> c < half ->
  substring_data i o c s = Ok (encoded (middle_of o c cs)) s.
Proof. exact substring_ok. Qed.

Theorem C31_append : forall s i cs, editable s i -> says (s_heap s) i cs ->
  forall src, (exists v, get_data i s = Ok (Some v) s) ->
  exists s', append_data i (Some (encoded src)) s = Ok tt s' /\ rewritten s i (Some (encoded (cs ++ src))) s'.
Proof. exact append_ok. Qed.

Theorem C31_insert : forall s i cs, editable s i -> says (s_heap s) i cs -> text cs ->
  forall o src, o < half /\ o <= N.of_nat (length cs) ->
  exists s', insert_data i o (Some (encoded src)) s = Ok tt s' /\
    rewritten s i (Some (encoded (head_of o cs ++ src ++ tail_of o 0 cs))) s'.
Proof. exact insert_ok. Qed.

Theorem C31_delete : forall s i cs, editable s i -> says (s_heap s) i cs -> text cs ->
  forall o c, o < half /\ o <= N.of_nat (length cs) -> c < half ->
  exists s', delete_data i o c s = Ok tt s' /\ rewritten s i (Some (encoded (head_of o cs ++ tail_of o c cs))) s'.
Proof. exact delete_ok. Qed.

Theorem C31_replace : forall s i cs, editable s i -> says (s_heap s) i cs -> text cs ->
  forall o c src, o < half /\ o <= N.of_nat (length cs) -> c < half ->
  exists s', replace_data i o c (Some (encoded src)) s = Ok tt s' /\
    rewritten s i (Some (encoded (head_of o cs ++ src ++ tail_of o c cs))) s'.
Proof. exact replace_ok. Qed.

Theorem C31_set : forall s i cs, editable s i -> says (s_heap s) i cs ->
  forall v, exists s', set_data i v s = Ok tt s' /\ rewritten s i v s'.
Proof. exact set_ok. Qed.

Theorem C31_offset_out_of_range : forall s i cs, editable s i -> says (s_heap s) i cs -> text cs ->
  forall o c v, half <= o \/ N.of_nat (length cs) < o ->
  substring_data i o c s = Exc INDEX_SIZE_ERR s /\ insert_data i o v s = Exc INDEX_SIZE_ERR s /\
  delete_data i o c s = Exc INDEX_SIZE_ERR s /\ replace_data i o c v s = Exc INDEX_SIZE_ERR s.
Proof. exact out_of_range. Qed.

Theorem C31_count_out_of_range : forall s i, editable s i -> forall o c v, half <= c ->
  substring_data i o c s = Exc INDEX_SIZE_ERR s /\ delete_data i o c s = Exc INDEX_SIZE_ERR s /\
  replace_data i o c v s = Exc INDEX_SIZE_ERR s.
Proof. exact negative_count. Qed.

Theorem C31_delete_undoes_insert : forall s i cs o src, editable s i -> says (s_heap s) i cs -> text cs ->
  text (head_of o cs ++ src ++ tail_of o 0 cs) -> o < half -> o <= N.of_nat (length cs) -> N.of_nat (length src) < half ->
  exists s1 s2, insert_data i o (Some (encoded src)) s = Ok tt s1 /\
    delete_data i o (N.of_nat (length src)) s1 = Ok tt s2 /\ says (s_heap s2) i cs.
Proof. exact delete_undoes_insert. Qed.

Theorem C31_replace_is_delete_then_insert : forall s i cs o c src, editable s i -> says (s_heap s) i cs -> text cs ->
  o < half -> o <= N.of_nat (length cs) -> c < half ->
  exists s1 s2 s3 r, delete_data i o c s = Ok tt s1 /\ insert_data i o (Some (encoded src)) s1 = Ok tt s2 /\
    replace_data i o c (Some (encoded src)) s = Ok tt s3 /\ says (s_heap s2) i r /\ says (s_heap s3) i r.
Proof. exact replace_is_delete_insert. Qed.

Theorem C31_read_only : forall s i, linked s -> live (s_heap s) i -> read_only (s_heap s) i -> forall o c v,
  set_data i v s = Exc NO_MODIFICATION_ALLOWED_ERR s /\ append_data i v s = Exc NO_MODIFICATION_ALLOWED_ERR s /\
  insert_data i o v s = Exc NO_MODIFICATION_ALLOWED_ERR s /\ delete_data i o c s = Exc NO_MODIFICATION_ALLOWED_ERR s /\
  replace_data i o c v s = Exc NO_MODIFICATION_ALLOWED_ERR s /\ split_text i o s = Exc NO_MODIFICATION_ALLOWED_ERR s.
Proof. exact read_only_rejects. Qed.

Theorem C31_edited_nodes_stay_editable : forall s i v s', rewritten s i v s' -> editable s i -> editable s' i.
Proof. exact rw_editable. Qed.

(** A text node that was created without data cannot be appended to. *)
Theorem C31_append_to_null_refuted : exists k s g i, reach k s g /\ short k /\ holds g i /\ editable s i /\
  append_data i (Some b_ab) s = Bad AssertFail.
Proof. exact append_null. Qed.

Example C31_case : editable words_st 4%nat /\ says (s_heap words_st) 4%nat [104; 233] /\ text [104; 233] /\
  (exists v, get_data 4%nat words_st = Ok (Some v) words_st) /\
  data_of 4%nat (insert_data 4%nat 1 (Some b_Z) words_st) = Some (Some (encoded [104; 90; 233])) /\
  data_of 4%nat (delete_data 4%nat 0 1 words_st) = Some (Some (encoded [233])) /\
  data_of 4%nat (delete_data 4%nat 1 2147483647 words_st) = Some (Some (encoded [104])).
Proof. exact edits_case. Qed.

(** ** C32 *)

(** For offsets before the end: the node keeps the first part, a new text node of
    the same document has the rest.  Missing: the new node is not put into the
    tree, and the offset [length] is refused. *)
Theorem C32_split_partial : forall s i cs o, editable s i -> says (s_heap s) i cs -> text cs -> N.of_nat (length cs) < half ->
  o < N.of_nat (length cs) ->
  exists r s1 s2, split_text i o s = Ok r s2 /\ ~ live (s_heap s) r /\
    (exists n d, s_heap s i = Some n /\ n_owner n = Some d /\
       s_heap s1 r = Some (set_pending true (new_node TEXT (n_name n) (Some (encoded (skipn (N.to_nat o) cs))) None None (Some d))) /\
       (forall j, j <> r -> j <> d -> s_heap s1 j = s_heap s j) /\
       (forall nd, s_heap s d = Some nd -> s_heap s1 d = Some (set_pend (n_pend nd ++ [r]) nd))) /\
    s_log s1 = s_log s /\ linked s1 /\
    rewritten s1 i (Some (encoded (firstn (N.to_nat o) cs))) s2.
Proof. exact split_ok. Qed.

Theorem C32_offset_out_of_range : forall s i cs o, editable s i -> says (s_heap s) i cs -> text cs ->
  N.of_nat (length cs) <= o -> split_text i o s = Exc INDEX_SIZE_ERR s.
Proof. exact split_range. Qed.

Theorem C32_next_sibling_refuted : exists k s g p i o r s', reach k s g /\ short k /\ holds g i /\ editable s i /\
  children (s_heap s) p [2%nat; i; 4%nat; 5%nat; 6%nat] /\
  split_text i o s = Ok r s' /\ children (s_heap s') p [2%nat; i; 4%nat; 5%nat; 6%nat] /\ parent_of (s_heap s') r = None.
Proof. exact split_not_inserted. Qed.

Theorem C32_at_end_refuted : exists k s g i cs, reach k s g /\ short k /\ holds g i /\ editable s i /\ says (s_heap s) i cs /\
  split_text i (N.of_nat (length cs)) s = Exc INDEX_SIZE_ERR s.
Proof. exact split_at_end. Qed.

Example C32_case : editable words_st 4%nat /\ says (s_heap words_st) 4%nat [104; 233] /\ text [104; 233] /\
  N.of_nat (length [104; 233]) < half /\ 1 < N.of_nat (length [104; 233]).
Proof. exact split_case. Qed.

(** ** C33 *)

(** With at most one text node, and no CDATA section, on either side. *)
Theorem C33_whole_text_partial : forall s p A t B v w np nt, linked s -> s_heap s p = Some np -> n_type np <> ENTITY ->
  children (s_heap s) p (A ++ t :: B) -> s_heap s t = Some nt -> n_value nt = Some v ->
  near (s_heap s) (rev A) -> near (s_heap s) B -> whole (s_heap s) A B v w -> get_whole_text t s = Ok (Some w) s.
Proof. exact whole_ok. Qed.

Theorem C33_longer_runs_refuted : exists k s g p t v w w' s', reach k s g /\ short k /\ holds g t /\
  children (s_heap s) p ([2%nat; 3%nat] ++ t :: [5%nat; 6%nat]) /\
  whole (s_heap s) [2%nat; 3%nat] [5%nat; 6%nat] v w /\ get_whole_text t s = Ok (Some w') s' /\ w' <> w.
Proof. exact whole_misses. Qed.

Theorem C33_replace_whole_text_partial : forall i v s r s', replace_whole_text i v s = Ok r s' ->
  r = i /\ exists n, s_heap s' i = Some n /\ n_value n = v.
Proof. exact replace_whole_Ok. Qed.

(** The receiving node itself leaves the tree; without a parent the call crashes. *)
Theorem C33_replace_removes_refuted : exists k s g p t s', reach k s g /\ short k /\ holds g t /\ parent_of (s_heap s) t = Some p /\
  replace_whole_text t (Some b_Z) s = Ok t s' /\ parent_of (s_heap s') t = None.
Proof. exact replace_whole_gone. Qed.

Theorem C33_replace_crashes_refuted : exists k s g t, reach k s g /\ short k /\ holds g t /\ editable s t /\
  replace_whole_text t (Some b_Z) s = Bad NullDeref.
Proof. exact replace_whole_crash. Qed.

Example C33_case : linked words_st /\ type_of (s_heap words_st) 1%nat = Some ELEMENT /\
  children (s_heap words_st) 1%nat ([2%nat] ++ 3%nat :: [4%nat; 5%nat; 6%nat]) /\
  option_map n_value (s_heap words_st 3%nat) = Some (Some b_cd) /\
  near (s_heap words_st) (rev [2%nat]) /\ near (s_heap words_st) [4%nat; 5%nat; 6%nat] /\
  whole (s_heap words_st) [2%nat] [4%nat; 5%nat; 6%nat] b_cd (b_ab ++ b_cd ++ b_he).
Proof. exact whole_case. Qed.

Definition chardata_theorems :=
  (text_nodes_editable, C31_length, C31_substring, C31_append, C31_insert, C31_delete, C31_replace, C31_set, C31_offset_out_of_range,
   C31_count_out_of_range, C31_delete_undoes_insert, C31_replace_is_delete_then_insert, C31_read_only, C31_edited_nodes_stay_editable,
   C31_append_to_null_refuted, C32_split_partial, C32_offset_out_of_range, C32_next_sibling_refuted, C32_at_end_refuted,
   C33_whole_text_partial, C33_longer_runs_refuted, C33_replace_whole_text_partial, C33_replace_removes_refuted, C33_replace_crashes_refuted).
Print Assumptions chardata_theorems.
