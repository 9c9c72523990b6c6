(** C59: values and default values of INPUT and TEXTAREA. *)
From Coq Require Import List NArith Bool Arith.
From Verif Require Import Base StringModel StrRefModel StrRefSpec StrRefReads StrRefWitness.
Import ListNotations.

(** The value that was set last is read, whatever else is called in between. *)
Theorem C59_value : forall k s own lost e v s1 u os s2 own2, sreach k s own lost -> slegal own s (SSetValue e v) ->
  sexec (SSetValue e v) s = Ok u s1 -> smore s1 own os s2 own2 -> forallb (keeps_value e) os = true ->
  brief (S k + length os) -> exists s3, sexec (SValue e) s2 = Ok (UStr v) s3.
Proof. exact set_value_read. Qed.
(** The value of an INPUT that was never set is the default value. *)
Theorem C59_value_default : forall k s own lost o e s1 os s2 own2, sreach k s own lost -> slegal own s o -> calm s o -> makes o ->
  sexec o s = Ok (UEl e) s1 -> smore s1 own os s2 own2 -> forallb (keeps_value e) os = true -> brief (S k + length os) ->
  input s2 e -> exists v s3 s4, sexec (SValue e) s2 = Ok (UStr v) s3 /\ sexec (SDefault e) s2 = Ok (UStr v) s4.
Proof. exact unset_read. Qed.
(** The default value that was set last is read. *)
Theorem C59_default : forall k s own lost e v s1 u os s2 own2, sreach k s own lost -> slegal own s (SSetDefault e v) ->
  sexec (SSetDefault e v) s = Ok u s1 -> smore s1 own os s2 own2 -> forallb (keeps_default e) os = true ->
  brief (S k + length os) -> exists s3, sexec (SDefault e) s2 = Ok (UStr v) s3.
Proof. exact set_default_read. Qed.
(** Before, it is the first value the attribute was given, *)
Theorem C59_default_first : forall k s own lost o e s1 os s2 own2 n w s3 os' s4 own4, sreach k s own lost -> slegal own s o -> calm s o -> makes o ->
  sexec o s = Ok (UEl e) s1 -> smore s1 own os s2 own2 -> forallb (spares e) os = true -> input s2 e ->
  slegal own2 s2 (SAttr e n w) -> named s2 n n_value -> sexec (SAttr e n w) s2 = Ok UDone s3 ->
  smore s3 own2 os' s4 own4 -> forallb (keeps_default e) os' = true -> brief (S (S k + length os) + length os') ->
  exists s5, sexec (SDefault e) s4 = Ok (UStr (Some w)) s5.
Proof. exact first_attr. Qed.
(** which need not be the value it has. *)
Theorem C59_default_attribute_refuted : exists k s own lost e n w u s1 w' s2, sreach k s own lost /\ brief k /\ slegal own s (SAttr e n w) /\
  named s n n_value /\ sexec (SAttr e n w) s = Ok u s1 /\ sexec (SDefault e) s1 = Ok (UStr (Some w')) s2 /\ text s1 w' <> text s1 w.
Proof. exact attr_case. Qed.
(** The text of a TEXTAREA is the default value when the value is set, *)
Theorem C59_area_default : forall k s own lost o e s1 os s2 own2 t s3 v s4 os' s5 own5, sreach k s own lost -> slegal own s o -> calm s o -> makes o ->
  sexec o s = Ok (UEl e) s1 -> smore s1 own os s2 own2 -> forallb (spares e) os = true ->
  slegal own2 s2 (SSetText e t) -> sexec (SSetText e t) s2 = Ok UDone s3 ->
  slegal own2 s3 (SSetValue e v) -> sexec (SSetValue e v) s3 = Ok UDone s4 ->
  smore s4 own2 os' s5 own5 -> forallb (keeps_default e) os' = true -> brief (S (S (S k + length os)) + length os') ->
  exists s6, sexec (SDefault e) s5 = Ok (UStr t) s6.
Proof. exact area_default. Qed.
(** but when the value is only read there is no default value from then on. *)
Theorem C59_area_default_lost_refuted : forall k s own lost o e s1 os s2 own2 t s3 u s4 os' s5 own5, sreach k s own lost -> slegal own s o -> calm s o -> makes o ->
  sexec o s = Ok (UEl e) s1 -> smore s1 own os s2 own2 -> forallb (spares e) os = true ->
  slegal own2 s2 (SSetText e t) -> sexec (SSetText e t) s2 = Ok UDone s3 ->
  sexec (SValue e) s3 = Ok u s4 -> smore s4 (own_after own2 (SValue e) u) os' s5 own5 -> forallb (keeps_default e) os' = true ->
  brief (S (S (S k + length os)) + length os') ->
  u = UStr t /\ exists s6, sexec (SDefault e) s5 = Ok (UStr None) s6.
Proof. exact area_no_default. Qed.
(** Whether a box is checked is what was set last. *)
Theorem C59_checked : forall k s own lost e b s1 u os s2 own2, sreach k s own lost -> slegal own s (SSetChecked e b) ->
  sexec (SSetChecked e b) s = Ok u s1 -> smore s1 own os s2 own2 -> forallb (keeps_checked e) os = true ->
  exists s3, sexec (SChecked e) s2 = Ok (UBool b) s3.
Proof. exact set_checked_read. Qed.
(** A copy of an INPUT has its value and its default value. *)
Theorem C59_copy : forall k s own lost e c s1, sreach k s own lost -> brief (S k) -> there s e -> sexec (SCopy e) s = Ok (UEl c) s1 -> input s e ->
  input s1 c /\ c <> e /\
  exists v d s2 s3 s4 s5, sexec (SValue e) s = Ok (UStr v) s2 /\ sexec (SValue c) s1 = Ok (UStr v) s3 /\
    sexec (SDefault e) s = Ok (UStr d) s4 /\ sexec (SDefault c) s1 = Ok (UStr d) s5.
Proof. exact copy_reads. Qed.

Example C59_set : sreach 6 (st_of one_input) (own_of one_input) (lost_of one_input) /\
  slegal (own_of one_input) (st_of one_input) (SSetValue 0 (Some 2)) /\ forallb (keeps_value 0) after = true /\ brief (7 + length after) /\
  exists s1 s2 own2, sexec (SSetValue 0 (Some 2)) (st_of one_input) = Ok UDone s1 /\ smore s1 (own_of one_input) after s2 own2.
Proof. exact value_case. Qed.
Example C59_made : sreach 5 (st_of made) (own_of made) (lost_of made) /\ slegal (own_of made) (st_of made) (SElement 0) /\
  slegal (own_of made) (st_of made) (SElement 1) /\ exists s1, sexec (SElement 0) (st_of made) = Ok (UEl 0) s1.
Proof. exact made_case. Qed.
Example C59_area_read : exists s1 s3 s4, sexec (SElement 1) (st_of made) = Ok (UEl 0) s1 /\ slegal (own_of made) s1 (SSetText 0 (Some 2)) /\
  sexec (SSetText 0 (Some 2)) s1 = Ok UDone s3 /\ slegal (own_of made) s3 (SValue 0) /\ sexec (SValue 0) s3 = Ok (UStr (Some 2)) s4.
Proof. exact area_case. Qed.
Example C59_area_set : exists s1 s3 s4, sexec (SElement 1) (st_of made) = Ok (UEl 0) s1 /\ slegal (own_of made) s1 (SSetText 0 (Some 2)) /\
  sexec (SSetText 0 (Some 2)) s1 = Ok UDone s3 /\ slegal (own_of made) s3 (SSetValue 0 (Some 3)) /\ sexec (SSetValue 0 (Some 3)) s3 = Ok UDone s4.
Proof. exact area_set_case. Qed.
Example C59_first : exists s1 s3 s4, sexec (SElement 0) (st_of made) = Ok (UEl 0) s1 /\ slegal (own_of made) s1 (SAttr 0 4 2) /\
  sexec (SAttr 0 4 2) s1 = Ok UDone s3 /\ slegal (own_of made) s3 (SAttr 0 4 3) /\ sexec (SAttr 0 4 3) s3 = Ok UDone s4.
Proof. exact first_case. Qed.
Example C59_copied : sreach 11 (st_of busy) (own_of busy) (lost_of busy) /\ there (st_of busy) 0 /\ input (st_of busy) 0 /\
  exists s1, sexec (SCopy 0) (st_of busy) = Ok (UEl 3) s1.
Proof. exact copy_case. Qed.

Definition C59_theorems := (C59_value, C59_value_default, C59_default, C59_default_first, C59_default_attribute_refuted, C59_area_default,
  C59_area_default_lost_refuted, C59_checked, C59_copy).
Print Assumptions C59_theorems.
