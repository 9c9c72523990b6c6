(** C57: integer and boolean properties kept in attributes. *)
From Coq Require Import List NArith ZArith Bool.
From Verif Require Import Base StringModel NameModel AttrModel AttrSpec AttrWitness NumModel NumSpec NumProofs NumReach NumBool NumWitness.
Import ListNotations.
Local Open Scope N_scope.

(** An integer that is set is read back. *)
Theorem C57_set_get : forall k s Q j e n v s1, areach k s Q -> N.of_nat k < 4294967270 -> an_element Q e -> a_name n -> int32 v ->
  set_int32_property j e n v s = Ok tt s1 -> exists s2, get_int32_property e n s1 = Ok v s2.
Proof. exact int_back. Qed.
(** Reading an attribute whose text begins with a numeral; the call changes nothing. *)
Theorem C57_read : forall k s Q e n bl sg b ds v z rest, areach k s Q -> N.of_nat k < 4294967280 -> written Q e n = Some (Some (bl ++ sg ++ ds ++ rest)) ->
  Forall blank bl -> sign sg (Z.of_N v) z -> numeral b ds v -> ends b ds rest ->
  exists r s', get_int32_property e n s = Ok r s' /\ int32 r /\ same_bits r (as_long z) /\ answers_as Q s s'.
Proof. exact int_read. Qed.
Theorem C57_absent : forall k s Q e n, areach k s Q -> N.of_nat k < 4294967280 -> an_element Q e -> written Q e n = None ->
  exists s', get_int32_property e n s = Ok (-1)%Z s' /\ answers_as Q s s'.
Proof. exact int_absent. Qed.
(** The attribute then holds the decimal notation of the value's bits. *)
Theorem C57_text : forall k s Q j e n v s1, areach k s Q -> N.of_nat k < 4294967280 -> an_element Q e -> a_name n -> set_int32_property j e n v s = Ok tt s1 ->
  exists ds, answer (aexec (AGet e None n) s1) = Some (RVal (Some ds)) /\ decimal ds (Z.to_N (v mod 2 ^ 32)).
Proof. exact int_text. Qed.
(** So a negative value is written as a large positive one, *)
Theorem C57_negative_refuted : forall k s Q j e n v s1, areach k s Q -> N.of_nat k < 4294967280 -> an_element Q e -> a_name n -> int32 v -> (v < 0)%Z ->
  set_int32_property j e n v s = Ok tt s1 ->
  exists ds, answer (aexec (AGet e None n) s1) = Some (RVal (Some ds)) /\ decimal ds (Z.to_N (v + 2 ^ 32)) /\ hd_error ds <> Some 45.
Proof. exact int_negative. Qed.
(** "010" is read as 8, "4294967297" as 1, *)
Theorem C57_octal_refuted : exists k s Q e n s', areach k s Q /\ answer (aexec (AGet e None n) s) = Some (RVal (Some [48;49;48])) /\ get_int32_property e n s = Ok 8%Z s'.
Proof. exact octal_read. Qed.
Theorem C57_range_refuted : exists k s Q e n s', areach k s Q /\ answer (aexec (AGet e None n) s) = Some (RVal (Some [52;50;57;52;57;54;55;50;57;55])) /\ get_int32_property e n s = Ok 1%Z s'.
Proof. exact wrapped_read. Qed.
(** and an attribute without a value is read through NULL. *)
Theorem C57_unset_refuted : forall k s Q e n, areach k s Q -> N.of_nat k < 4294967280 -> written Q e n = Some None -> get_int32_property e n s = Bad NullDeref.
Proof. exact int_unset. Qed.

(** A boolean property is the presence of the attribute. *)
Theorem C57_bool_read : forall k s Q e n, areach k s Q -> N.of_nat k < 4294967280 -> an_element Q e ->
  exists b s', answer (aexec (AHas e None n) s) = Some (RBool b) /\ get_bool_property e n s = Ok b s' /\ answers_as Q s s'.
Proof. exact bool_read. Qed.
Theorem C57_bool_set_get : forall k s Q e n y j b, areach k s Q -> N.of_nat k < 4294967270 -> q_el Q e = Some y -> q_ro y = false ->
  (b = false -> single Q e n /\ unprefixed Q e n) ->
  exists s1 s2, set_bool_property j e n b s = Ok tt s1 /\ get_bool_property e n s1 = Ok b s2.
Proof. exact bool_back. Qed.
(** Without these conditions it may still be there, or the call fail. *)
Theorem C57_bool_twice_refuted : exists k s Q e n j s1 s2, areach k s Q /\ an_element Q e /\ set_bool_property j e n false s = Ok tt s1 /\ get_bool_property e n s1 = Ok true s2.
Proof. exact twice_clear. Qed.
Theorem C57_bool_prefixed_refuted : exists k s Q e n j s1, areach k s Q /\ an_element Q e /\ set_bool_property j e n false s = Exc NOT_FOUND_ERR s1.
Proof. exact prefixed_clear. Qed.

(** size=" -12px" *)
Example C57_read_case : areach 2 (astate (sized px)) (ameans (sized px)) /\ written (ameans (sized px)) 0 size_ = Some (Some ([32] ++ [45] ++ [49;50] ++ [112;120])) /\
  Forall blank [32] /\ sign [45] (Z.of_N 12) (-12) /\ numeral 10 [49;50] 12 /\ ends 10 [49;50] [112;120].
Proof. exact px_case. Qed.
Example C57_write_case : areach 1 (astate bare) (ameans bare) /\ an_element (ameans bare) 0 /\ a_name size_ /\ int32 (-5) /\ written (ameans bare) 0 size_ = None /\
  exists s1, set_int32_property j0 0 size_ (-5) (astate bare) = Ok tt s1.
Proof. exact write_case. Qed.
Example C57_unset_case : areach 3 (astate unset) (ameans unset) /\ written (ameans unset) 0 size_ = Some None.
Proof. exact unset_case. Qed.
Example C57_bool_case : areach 2 (astate (sized px)) (ameans (sized px)) /\ exists y, q_el (ameans (sized px)) 0 = Some y /\ q_ro y = false /\ q_ents y <> [] /\
  single (ameans (sized px)) 0 size_ /\ unprefixed (ameans (sized px)) 0 size_.
Proof. exact bool_case. Qed.

Definition C57_theorems := (C57_set_get, C57_read, C57_absent, C57_text, C57_negative_refuted, C57_octal_refuted, C57_range_refuted, C57_unset_refuted, C57_bool_read, C57_bool_set_get, C57_bool_twice_refuted, C57_bool_prefixed_refuted).
Print Assumptions C57_theorems.
