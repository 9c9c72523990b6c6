(** Specification of importNode and adoptNode. *)
From Coq Require Import List Arith NArith Bool.
From Verif Require Import Base HeapModel HeapSpec HistModel TreeSpec WalkModel WalkSpec ContentSpec.
Import ListNotations.

(** Every node at or below [i], attributes included, is one the code can copy. *)
Definition importable (h : heap) (i : id) : Prop :=
  forall j n, anc h i j -> h j = Some n -> clonable (n_type n).

(** The state after adopting [i] answered [j]. *)
Record adopted (s : st) (i j : id) (s' : st) : Prop := mkAdopted {
  ap_linked : linked s';
  ap_copy : copy_of (s_heap s) (s_heap s') i j;
  ap_top : exists m, s_heap s' j = Some m /\ n_parent m = None /\ n_ref m = 1%N;
  (* the source has left its parent, and no other list of children has changed *)
  ap_gone : parent_of (s_heap s') i = None;
  ap_lists : forall x l, children (s_heap s) x l -> children (s_heap s') x (without i l);
  (* the old nodes are otherwise as they were *)
  ap_old : forall x n, s_heap s x = Some n -> exists n', s_heap s' x = Some n' /\ n_type n' = n_type n /\ n_name n' = n_name n /\
     n_value n' = n_value n /\ n_ns n' = n_ns n /\ n_prefix n' = n_prefix n /\ n_attrs n' = n_attrs n /\ n_ref n' = n_ref n
}.
