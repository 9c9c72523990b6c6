(** C58: every reference to a string is accounted for. *)
From Coq Require Import List NArith Bool Arith.
From Verif Require Import Base StringModel StrRefModel StrRefSpec StrRefTheorems StrRefWitness.
Import ListNotations.

(** The count of a string is the number of its holders, and of the references that were
    lost. *)
Theorem C58_counts_partial : forall k s own lost i, sreach k s own lost -> brief k ->
  refs s i = (times i own + times i (kept s) + times i lost)%N.
Proof. exact counted. Qed.
(** Who holds a string can read it, *)
Theorem C58_held_partial : forall k s own lost i, sreach k s own lost -> brief k -> In i own \/ In i (kept s) -> exists b, text s i = Some b.
Proof. exact held. Qed.
(** and reads the same bytes as long as it holds it. *)
Theorem C58_bytes_partial : forall k s own lost os s' own' i b, sreach k s own lost -> brief (k + length os) -> smore s own os s' own' ->
  text s i = Some b -> In i own' \/ In i (kept s') -> text s' i = Some b.
Proof. exact bytes_stay. Qed.
(** No call of a correct client touches freed memory. *)
Theorem C58_safe_partial : forall k s own lost o b, sreach k s own lost -> brief k -> slegal own s o -> calm s o -> sexec o s <> Bad b.
Proof. exact never_bad. Qed.
(** A string without a holder is freed, *)
Theorem C58_freed_partial : forall k s own lost i, sreach k s own lost -> brief k -> ~ In i own -> ~ In i (kept s) -> ~ In i lost -> text s i = None.
Proof. exact let_go. Qed.
(** but the value of a TEXTAREA that is read twice is not; *)
Theorem C58_textarea_leak_refuted : exists k s own lost i b, sreach k s own lost /\ brief k /\ own = [] /\ kept s = [] /\ text s i = Some b.
Proof. exact leak_case. Qed.
(** an element of the SVG namespace is made with a name that is freed already, *)
Theorem C58_svg_prefixed_refuted : forall s own lost k n q p l, sreach k s own lost -> brief k -> In n own -> In q own ->
  text s n = Some svg_ns -> text s q = Some (p ++ 58%N :: l) -> ~ In 58%N p -> l <> [] ->
  sexec (SElementNS (Some n) q) s = Bad UseAfterFree.
Proof. exact svg_prefixed. Qed.
(** or with one that has two references too few, *)
Theorem C58_svg_count_refuted : forall s own lost k n q b, sreach k s own lost -> brief k -> In n own -> In q own ->
  text s n = Some svg_ns -> text s q = Some b -> ~ In 58%N b -> b <> [] ->
  exists e s', sexec (SElementNS (Some n) q) s = Ok (UEl e) s' /\ (refs s' q + 1 = refs s q)%N /\ times q (kept s') = (times q (kept s) + 1)%N.
Proof. exact svg_plain. Qed.
(** so that it is freed under its holders. *)
Theorem C58_svg_dangles_refuted : forall s own lost k n q b, sreach k s own lost -> brief k -> In n own -> In q own ->
  text s n = Some svg_ns -> text s q = Some b -> ~ In 58%N b -> b <> [] -> refs s q = 1%N ->
  exists e s', sexec (SElementNS (Some n) q) s = Ok (UEl e) s' /\ text s' q = None /\ In q (kept s') /\ sexec (SRelease q) s' = Bad UseAfterFree.
Proof. exact svg_dangles. Qed.

Example C58_busy : sreach 11 (st_of busy) (own_of busy) (lost_of busy) /\ brief 11 /\
  refs (st_of busy) 2 = 8%N /\ times 2 (own_of busy) = 2%N /\ times 2 (kept (st_of busy)) = 6%N /\ text (st_of busy) 0 = None /\
  slegal (own_of busy) (st_of busy) (SDestroy 0).
Proof. exact busy_case. Qed.
Example C58_svg : sreach 3 (st_of svgs) (own_of svgs) (lost_of svgs) /\ brief 3 /\ In 0 (own_of svgs) /\ In 1 (own_of svgs) /\ In 2 (own_of svgs) /\
  text (st_of svgs) 0 = Some svg_ns /\ text (st_of svgs) 1 = Some t_x /\ ~ In 58%N t_x /\ refs (st_of svgs) 1 = 1%N /\
  text (st_of svgs) 2 = Some ([112%N] ++ 58%N :: [103%N]).
Proof. exact svg_case. Qed.
Example C58_more : sreach 6 (st_of one_input) (own_of one_input) (lost_of one_input) /\
  slegal (own_of one_input) (st_of one_input) (SSetValue 0 (Some 2)) /\ forallb (keeps_value 0) after = true /\ brief (7 + length after) /\
  exists s1 s2 own2, sexec (SSetValue 0 (Some 2)) (st_of one_input) = Ok UDone s1 /\ smore s1 (own_of one_input) after s2 own2.
Proof. exact value_case. Qed.

Definition C58_theorems := (C58_counts_partial, C58_held_partial, C58_bytes_partial, C58_safe_partial, C58_freed_partial,
  C58_textarea_leak_refuted, C58_svg_prefixed_refuted, C58_svg_count_refuted, C58_svg_dangles_refuted).
Print Assumptions C58_theorems.
