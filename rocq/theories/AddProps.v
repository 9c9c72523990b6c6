(** C48: adding options to a select element. *)
From Coq Require Import List Arith NArith ZArith Bool.
From Verif Require Import Base HeapModel HeapSpec HistModel TreeSpec HtmlModel HtmlSpec HtmlWitness AddProofs AddWitness.
Import ListNotations.

(** Adding is inserting, with the errors of insertBefore (C02), and without a reference
    for the caller. *)
Theorem C48_add : forall k s g, reach k s g -> short (S (S k)) -> forall e o before, legal s g (OInsert e o before) ->
  exists x, first_failure (insert_checks (s_heap s) e o before) x /\
  match x with
  | Some y => select_add e o before s = Exc y s
  | None => exists s' g', select_add e o before s = Ok tt s' /\ reach (S (S k)) s' g' /\ (forall i, owns g' i = owns g i) /\
      (forall lp lc j l, children (s_heap s) e lp -> children (s_heap s) o lc -> children (s_heap s) j l ->
         children (s_heap s') j (after_insert (s_heap s) e o before lp lc j l)) /\
      (forall j n, s_heap s j = Some n -> exists n', s_heap s' j = Some n' /\ n_ref n' = n_ref n /\ n_attrs n' = n_attrs n /\ n_value n' = n_value n)
  end.
Proof. exact reach_add. Qed.
Example C48_add_case : reach 51 form form_client /\ short 53 /\ legal form form_client (OInsert 2 5 (Some 3)) /\ children (s_heap form) 2 [3; 4; 5] /\ children (s_heap form) 5 [] /\
  after_insert (s_heap form) 2 5 (Some 3) [3; 4; 5] [] 2 [3; 4; 5] = [5; 3; 4].
Proof. exact add_case. Qed.

Definition C48_add_theorems := (C48_add).
Print Assumptions C48_add_theorems.
