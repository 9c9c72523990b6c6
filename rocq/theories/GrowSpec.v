(** Specification of a row put into a table that has none. *)
From Coq Require Import List Arith NArith Bool.
From Verif Require Import Base HeapModel HeapSpec TreeSpec WalkModel WalkSpec HtmlModel HtmlSpec.
Import ListNotations.

(** [b] is a new TBODY, the last child of the table [e], with the new row [row] as its
    only child; the client holds the row and not the body.  Nothing else has moved or
    changed. *)
Record grown (s : st) (e b row : id) (s' : st) : Prop := mkGrown {
  gw_linked : linked s';
  gw_fresh : s_heap s b = None /\ s_heap s row = None /\ b <> row;
  gw_body : exists n ne, s_heap s' b = Some n /\ s_heap s e = Some ne /\ n_type n = ELEMENT /\ n_name n = Some s_TBODY /\ n_ns n = n_ns ne /\
     n_prefix n = n_prefix ne /\ n_owner n = n_owner ne /\ n_parent n = Some e /\ n_attrs n = [] /\ n_ref n = 0%N;
  gw_row : exists n ne, s_heap s' row = Some n /\ s_heap s e = Some ne /\ n_type n = ELEMENT /\ n_name n = Some s_TR /\ n_ns n = n_ns ne /\
     n_prefix n = n_prefix ne /\ n_owner n = n_owner ne /\ n_parent n = Some b /\ n_attrs n = [] /\ n_ref n = 1%N;
  gw_inside : children (s_heap s') b [row] /\ children (s_heap s') row [];
  gw_lists : forall p l, children (s_heap s) p l -> children (s_heap s') p (if Nat.eqb p e then l ++ [b] else l);
  gw_nodes : forall j n, s_heap s j = Some n -> exists n', s_heap s' j = Some n' /\ n_type n' = n_type n /\ n_name n' = n_name n /\
     n_value n' = n_value n /\ n_ns n' = n_ns n /\ n_prefix n' = n_prefix n /\ n_attrs n' = n_attrs n /\ n_parent n' = n_parent n /\ n_ref n' = n_ref n
}.

(** The row [row], like the table [e], is the new last child of the body [b] there is; the
    client holds it.  Nothing else has moved or changed. *)
Record grown_in (s : st) (e b row : id) (s' : st) : Prop := mkGrownIn {
  gi_linked : linked s';
  gi_fresh : s_heap s row = None;
  gi_row : exists n ne, s_heap s' row = Some n /\ s_heap s e = Some ne /\ n_type n = ELEMENT /\ n_name n = Some s_TR /\ n_ns n = n_ns ne /\
     n_prefix n = n_prefix ne /\ n_owner n = n_owner ne /\ n_parent n = Some b /\ n_attrs n = [] /\ n_ref n = 1%N;
  gi_empty : children (s_heap s') row [];
  gi_lists : forall p l, children (s_heap s) p l -> children (s_heap s') p (if Nat.eqb p b then l ++ [row] else l);
  gi_nodes : forall j n, s_heap s j = Some n -> exists n', s_heap s' j = Some n' /\ n_type n' = n_type n /\ n_name n' = n_name n /\
     n_value n' = n_value n /\ n_ns n' = n_ns n /\ n_prefix n' = n_prefix n /\ n_attrs n' = n_attrs n /\ n_ref n' = n_ref n
}.
