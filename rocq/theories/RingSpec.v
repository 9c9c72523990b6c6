(** What the circular list is for: named sequences of entries. *)
From Coq Require Import List Arith Bool.
From Verif Require Import Base RingModel.
Import ListNotations.
Local Open Scope dom_scope.

(** [l] starting at [a]: what following [next] from [a] meets before [stop]. *)
Inductive rwalk (next : cell -> option nat) (h : rheap) (stop : nat) : nat -> list nat -> Prop :=
| rw_end a c : h a = Some c -> next c = Some stop -> rwalk next h stop a []
| rw_step a c b l : h a = Some c -> next c = Some b -> b <> stop -> rwalk next h stop b l -> rwalk next h stop a (b :: l).

(** The list headed by [a] has the entries [l]: forwards, and backwards. *)
Definition holds_list (h : rheap) (a : nat) (l : list nat) : Prop :=
  NoDup (a :: l) /\ rwalk snd h a a l /\ rwalk fst h a a (rev l).

(** Calls and their meaning on sequences.  [seqs a] are the entries of the list
    headed by [a]; [single e] says that [e] is an initialised entry in no list. *)
Inductive lop := LHead (a : nat) | LEntry (e : nat) | LAppend (a e : nat) | LDel (e : nat).
Record seqs := mkSeqs { heads : nat -> option (list nat); single : nat -> bool }.
Definition no_seqs : seqs := mkSeqs (fun _ => None) (fun _ => false).
Definition remove_entry (e : nat) (l : list nat) : list nat := filter (fun x => negb (Nat.eqb x e)) l.

Definition member (q : seqs) (e : nat) : Prop := exists a l, heads q a = Some l /\ In e l.
Definition known (q : seqs) (e : nat) : Prop := heads q e <> None \/ single q e = true \/ member q e.

(** Initialise fresh memory; append single entries to lists; delete members. *)
Definition lallowed (h : rheap) (q : seqs) (o : lop) : Prop :=
  match o with
  | LHead a | LEntry a => h a <> None /\ ~ known q a
  | LAppend a e => heads q a <> None /\ single q e = true
  | LDel e => member q e
  end.
Definition lmeans (q : seqs) (o : lop) : seqs :=
  match o with
  | LHead a => mkSeqs (fun x => if Nat.eqb x a then Some [] else heads q x) (single q)
  | LEntry e => mkSeqs (heads q) (fun x => Nat.eqb x e || single q x)
  | LAppend a e =>
      mkSeqs (fun x => if Nat.eqb x a then option_map (fun l => l ++ [e]) (heads q x) else heads q x)
             (fun x => negb (Nat.eqb x e) && single q x)
  | LDel e => mkSeqs (fun x => option_map (remove_entry e) (heads q x)) (fun x => Nat.eqb x e || single q x)
  end.
Definition lexec (o : lop) : M rheap unit :=
  match o with
  | LHead a | LEntry a => list_init a
  | LAppend a e => list_append a e
  | LDel e => list_del e
  end.

Inductive lreach (h0 : rheap) : rheap -> seqs -> Prop :=
| lr_start : lreach h0 h0 no_seqs
| lr_call h q o h' : lreach h0 h q -> lallowed h q o -> lexec o h = Ok tt h' -> lreach h0 h' (lmeans q o).
