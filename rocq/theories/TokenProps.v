(** C30: token lists. *)
From Coq Require Import List Arith NArith Bool.
From Verif Require Import Base AttrMapSpec TokenModel TokenSpec TokenProofs TokenWitness.
Import ListNotations.
Local Open Scope N_scope.

(** Careful histories (tokens without spaces, ASCII, no value that a list last
    wrote comes from elsewhere): every call succeeds and answers from the
    attribute. *)
Theorem C30_calls_partial : forall s w o, treach s w -> tlegal w o ->
  exists s', texec o s = Ok (fst (tmeans o w)) s' /\ treach s' (snd (tmeans o w)).
Proof. exact token_calls. Qed.

Theorem C30_add_partial : forall s w i t, treach s w -> tlegal w (TAdd i t) ->
  exists s', texec (TAdd i t) s = Ok TDone s' /\ forall j, (j < length (m_wrote w))%nat ->
    (forall u, tans (texec (TContains j u) s') = if bytes_eqb u t then Some (TBool true) else tans (texec (TContains j u) s)) /\
    (tans (texec (TContains j t) s) = Some (TBool true) -> tans (texec (TValue j) s') = tans (texec (TValue j) s)) /\
    (tans (texec (TContains j t) s) = Some (TBool false) ->
       tans (texec (TValue j) s') = Some (TStr (Some (join (tokens (m_value w) ++ [t])))) /\
       tokens (Some (join (tokens (m_value w) ++ [t]))) = tokens (m_value w) ++ [t]).
Proof. exact add_law. Qed.

Theorem C30_remove_partial : forall s w i t, treach s w -> tlegal w (TRemove i t) ->
  exists s', texec (TRemove i t) s = Ok TDone s' /\ forall j, (j < length (m_wrote w))%nat ->
    (forall u, tans (texec (TContains j u) s') = if bytes_eqb u t then Some (TBool false) else tans (texec (TContains j u) s)) /\
    tans (texec (TValue j) s') = Some (TStr (Some (join (without t (tokens (m_value w)))))) /\
    tokens (Some (join (without t (tokens (m_value w))))) = without t (tokens (m_value w)).
Proof. exact remove_law. Qed.

Theorem C30_no_token_twice_partial : forall s w, treach s w -> NoDup (tokens (m_value w)).
Proof. exact tokens_once. Qed.

(** The tokens are the words, if spaces are the only blanks. *)
Theorem C30_words_partial : forall v t, spaced v -> (In t (tokens (Some v)) <-> word t v).
Proof. exact tokens_words. Qed.

(** A list does not notice that its attribute gets the value it last wrote. *)
Theorem C30_echo_refuted : exists s i t u, anyhow s /\ t <> u /\ tans (texec (TValue i) s) = Some (TStr (Some t)) /\
  tans (texec (TContains i t) s) = Some (TBool false) /\ tans (texec (TContains i u) s) = Some (TBool true).
Proof. exact echo. Qed.
Theorem C30_two_lists_refuted : exists s t, anyhow s /\ tans (texec (TContains 1 t) s) = Some (TBool false) /\ tans (texec (TContains 0 t) s) = Some (TBool true).
Proof. exact two_lists. Qed.
(** A token may contain a space. *)
Theorem C30_blank_token_refuted : exists s t, anyhow s /\ tans (texec (TContains 0 t) s) = Some (TBool true) /\ tans (texec (TContains 1 t) s) = Some (TBool false).
Proof. exact blank_token. Qed.
(** Lengths in characters are taken for lengths in bytes. *)
Theorem C30_cut_token_refuted : exists s, anyhow s /\ tans (texec (TContains 0 [195; 169]) s) = Some (TBool true) /\
  tans (texec (TValue 0) s) = Some (TStr (Some [195])) /\ tans (texec (TContains 1 [195; 169]) s) = Some (TBool false).
Proof. exact cut_token. Qed.
Theorem C30_cut_value_refuted : exists s v t, anyhow s /\ tans (texec (TValue 0) s) = Some (TStr (Some v)) /\ word t v /\ tans (texec (TContains 0 t) s) = Some (TBool false).
Proof. exact cut_value. Qed.

Example C30_case : treach s1 w1 /\ tlegal w1 (TAdd 0 tc) /\ tlegal w1 (TRemove 1 tb) /\ tokens (m_value w1) = [tb; ta] /\
  tans (texec (TContains 0 ta) s1) = Some (TBool true) /\ tans (texec (TItem 1 1) s1) = Some (TStr (Some ta)).
Proof. exact token_case. Qed.

Definition token_theorems := (C30_calls_partial, C30_add_partial, C30_remove_partial, C30_no_token_twice_partial, C30_words_partial,
  C30_echo_refuted, C30_two_lists_refuted, C30_blank_token_refuted, C30_cut_token_refuted, C30_cut_value_refuted).
Print Assumptions token_theorems.
