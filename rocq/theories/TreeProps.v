(** C01-C08, C10-C14, C23, C45: the node tree, its reference counts and its
    mutation events, over whole client histories.

    [reach k s g]: state [s] is reached from the empty heap by [k] calls of a
    careful client whose references are described by [g] (HistModel.v, [legal]
    lists the rules).  [reach_any]: the client only has to own the nodes it
    passes.  [short k]: fewer than 2^32-2 calls, so that no reference counter
    wraps.  Vocabulary: HeapSpec.v and TreeSpec.v. *)
From Coq Require Import List Arith NArith Bool.
From Verif Require Import Base HeapModel HeapSpec HistModel TreeSpec TreeProofs TreeProofs2 TreeProofs3 TreeProofs4 TreeWitness.
Import ListNotations.

(** ** C01: child lists *)

(** In every state reached by a careful client every node has exactly one child
    list, the same forwards and backwards, of pairwise different nodes whose
    parent it is, and following parents ends at a parentless node.  Missing for
    the full C01: histories with the calls [legal] excludes, where it is false. *)
Theorem C01_child_lists_consistent_partial : forall k s g, reach k s g -> short k ->
  (forall p, live (s_heap s) p -> exists l, consistent_children (s_heap s) p l) /\
  (forall i, live (s_heap s) i -> exists r, anc (s_heap s) r i /\ top_node (s_heap s) r).
Proof. exact (fun k s g R SH => conj (lists_consistent k s g R SH) (parents_end k s g R SH)). Qed.

(** The navigation calls answer what the child lists say. *)
Theorem C01_navigation : forall k s g, reach k s g -> short (S k) -> forall i n l, holds g i -> s_heap s i = Some n -> children (s_heap s) i l ->
  (exists s', get_first_child i s = Ok (hd_error l) s' /\ answered s (hd_error l) s') /\
  (exists s', get_last_child i s = Ok (last_error l) s' /\ answered s (last_error l) s') /\
  has_child_nodes i s = Ok (match l with [] => false | _ => true end) s /\
  (n_type n <> ATTRIBUTE -> exists s', get_parent_node i s = Ok (n_parent n) s' /\ answered s (n_parent n) s') /\
  (n_type n <> DOCUMENT -> used g i = false -> exists s', get_owner_document i s = Ok (n_owner n) s' /\ answered s (n_owner n) s') /\
  (forall p a b, children (s_heap s) p (a ++ i :: b) ->
     (exists s', get_previous_sibling i s = Ok (last_error a) s' /\ answered s (last_error a) s') /\
     (exists s', get_next_sibling i s = Ok (hd_error b) s' /\ answered s (hd_error b) s')) /\
  (n_parent n = None -> n_type n <> ATTRIBUTE -> ~ stranded (s_heap s) i ->
     get_previous_sibling i s = Ok None s /\ get_next_sibling i s = Ok None s).
Proof. exact navigation. Qed.

(** Replacing a child by an empty fragment breaks the list. *)
Theorem C01_child_lists_consistent_refuted : exists k s g p, reach_any k s g /\ short k /\
  live (s_heap s) p /\ ~ exists l, consistent_children (s_heap s) p l.
Proof. exact refuted_lists. Qed.

Example C01_case : reach 16 demo_st demo_client /\ children (s_heap demo_st) 1 [3; 2; 5; 6] /\ children (s_heap demo_st) 6 [7].
Proof. exact (conj demo_reach (conj (proj1 demo_kids) (proj1 (proj2 (proj2 demo_kids))))). Qed.

(** ** C02: insertBefore, appendChild *)

(** The call fails, changing nothing, with the error of the first failed check;
    if no check fails it answers [c] and all child lists are as specified, all
    other content is unchanged, and the events are those of the change. *)
Theorem C02_insert_before : forall k s g, reach k s g -> short (S k) -> forall p c r, legal s g (OInsert p c r) ->
  exists o, first_failure (insert_checks (s_heap s) p c r) o /\
  match o with
  | Some e => insert_before p c r s = Exc e s
  | None => exists s', insert_before p c r s = Ok c s' /\ reach (S k) s' (account s (OInsert p c r) (OutNode (Some c)) g) /\
      (forall lp lc j l, children (s_heap s) p lp -> children (s_heap s) c lc -> children (s_heap s) j l ->
         children (s_heap s') j (after_insert (s_heap s) p c r lp lc j l)) /\
      same_content (s_heap s) (s_heap s') c /\
      exists evs, insert_events (s_heap s) p c r evs /\ s_log s' = s_log s ++ evs
  end.
Proof. exact insert_full. Qed.

Theorem C02_append_child : forall p c s, append_child p c s = insert_before p c None s.
Proof. exact (fun p c s => eq_refl). Qed.

Example C02_case : legal demo_st demo_client (OInsert 1 8 (Some 5)) /\ legal demo_st demo_client (OInsert 2 6 None) /\
  match insert_before 1 8 (Some 5) demo_st with Ok 8 s' => kidsn s' 1 = Some [3; 2; 8; 5; 6] | _ => False end /\
  match insert_before 2 6 None demo_st with Ok 6 s' => kidsn s' 1 = Some [3; 2; 5] /\ kidsn s' 2 = Some [6] | _ => False end.
Proof. split; [apply demo_legal; vm_compute; reflexivity|]. split; [apply demo_legal; vm_compute; reflexivity|]. vm_compute. auto. Qed.

(** ** C03: removeChild *)
Theorem C03_remove_child : forall k s g, reach k s g -> short (S k) -> forall p c, legal s g (ORemove p c) ->
  exists o, first_failure (remove_checks (s_heap s) p c) o /\
  match o with
  | Some e => remove_child p c s = Exc e s
  | None => exists s', remove_child p c s = Ok c s' /\ reach (S k) s' (account s (ORemove p c) (OutNode (Some c)) g) /\
      (forall j l, children (s_heap s) j l -> children (s_heap s') j (without c l)) /\
      parent_of (s_heap s') c = None /\
      same_content (s_heap s) (s_heap s') c /\
      exists ds, order (s_heap s) c (c :: ds) /\
        s_log s' = s_log s ++ leaves p c ds ++ leaves p c ds ++ [EvSubtree p; EvSubtree p]
  end.
Proof. exact remove_full. Qed.

Example C03_case : legal demo_st demo_client (ORemove 1 6) /\
  match remove_child 1 6 demo_st with Ok 6 s' => kidsn s' 1 = Some [3; 2; 5] /\ kidsn s' 6 = Some [7] | _ => False end.
Proof. split; [apply demo_legal; vm_compute; reflexivity|vm_compute; auto]. Qed.

(** ** C04: replaceChild *)

(** Missing for the full C04: empty fragments, where it is false. *)
Theorem C04_replace_child_partial : forall k s g, reach k s g -> short (S k) -> forall p c old, legal s g (OReplace p c old) ->
  exists o, first_failure (replace_checks (s_heap s) p c old) o /\
  match o with
  | Some e => replace_child p c old s = Exc e s
  | None => exists s', replace_child p c old s = Ok old s' /\ reach (S k) s' (account s (OReplace p c old) (OutNode (Some old)) g) /\
      (forall lp lc j l, children (s_heap s) p lp -> children (s_heap s) c lc -> children (s_heap s) j l ->
         children (s_heap s') j (after_replace (s_heap s) p c old lp lc j l)) /\
      same_content (s_heap s) (s_heap s') old /\
      (forall q, parent_of (s_heap s) c = Some q -> c <> old ->
         exists ds, order (s_heap s) c (c :: ds) /\ s_log s' = s_log s ++ leaves q c ds ++ [EvSubtree q]) /\
      (parent_of (s_heap s) c = None -> s_log s' = s_log s)
  end.
Proof. exact replace_full. Qed.

Theorem C04_replace_child_refuted : exists k s g p c old lp s', reach_any k s g /\ short k /\ owning s g (OReplace p c old) /\
  type_of (s_heap s) c = Some FRAGMENT /\ children (s_heap s) c [] /\ children (s_heap s) p lp /\
  replace_child p c old s = Ok old s' /\ ~ children (s_heap s') p (subst_at old [] lp).
Proof. exact refuted_replace. Qed.

(** The root element may be replaced by a comment, though it may not be removed. *)
Theorem C04_root_replaceable : exists k s g p c old s', reach k s g /\ short (S k) /\
  legal s g (OReplace p c old) /\ legal s g (ORemove p old) /\
  type_of (s_heap s) p = Some DOCUMENT /\ type_of (s_heap s) old = Some ELEMENT /\
  remove_child p old s = Exc NOT_SUPPORTED_ERR s /\ replace_child p c old s = Ok old s'.
Proof. exact root_replaced. Qed.

Example C04_case : legal demo_st demo_client (OReplace 1 8 5) /\ legal demo_st demo_client (OReplace 1 6 3) /\
  match replace_child 1 8 5 demo_st with Ok 5 s' => kidsn s' 1 = Some [3; 2; 8; 6] | _ => False end /\
  match replace_child 1 6 3 demo_st with Ok 3 s' => kidsn s' 1 = Some [6; 2; 5] | _ => False end.
Proof. split; [apply demo_legal; vm_compute; reflexivity|]. split; [apply demo_legal; vm_compute; reflexivity|]. vm_compute. auto. Qed.

(** ** C05: no cycles *)

(** Inserting a node at or above the parent always fails and changes nothing;
    with HIERARCHY_REQUEST_ERR unless an earlier check fails. *)
Theorem C05_no_insertion_beneath_itself : forall k s g, reach k s g -> short (S k) ->
  (forall p c r, legal s g (OInsert p c r) -> anc (s_heap s) c p ->
     (exists e, insert_before p c r s = Exc e s) /\
     (~ read_only (s_heap s) p -> (forall i, r = Some i -> parent_of (s_heap s) i = Some p) ->
        insert_before p c r s = Exc HIERARCHY_REQUEST_ERR s)) /\
  (forall p c old, legal s g (OReplace p c old) -> anc (s_heap s) c p ->
     (exists e, replace_child p c old s = Exc e s) /\
     (~ read_only (s_heap s) p -> parent_of (s_heap s) old = Some p ->
        replace_child p c old s = Exc HIERARCHY_REQUEST_ERR s)).
Proof. exact (fun k s g R SH => conj (insert_cycle k s g R SH) (replace_cycle k s g R SH)). Qed.

Theorem C05_no_cycle : forall k s g, reach k s g -> short k ->
  forall i p, parent_of (s_heap s) i = Some p -> ~ anc (s_heap s) i p.
Proof. exact no_cycle. Qed.

Example C05_case : legal demo_st demo_client (OInsert 6 1 (Some 7)) /\
  match insert_before 6 1 (Some 7) demo_st with Exc HIERARCHY_REQUEST_ERR _ => True | _ => False end.
Proof. split; [apply demo_legal; vm_compute; reflexivity|vm_compute; auto]. Qed.

(** ** C06: failing calls change nothing *)

(** Missing for the full C06: fragments rejected because of their content. *)
Theorem C06_failures_change_nothing_partial : forall k s g, reach k s g -> short (S k) ->
  forall o e s', legal s g o -> exec o s = Exc e s' -> s' = s.
Proof. exact fail_atomic. Qed.

(** After a rejected insertion of a fragment a call that would have succeeded
    before trips an assertion. *)
Theorem C06_failures_change_nothing_refuted : exists k s g o e s' o2, reach_any k s g /\ short k /\ owning s g o /\ owning s g o2 /\
  exec o s = Exc e s' /\ is_ok (exec o2 s) /\ exec o2 s' = Bad AssertFail.
Proof. exact refuted_atomic. Qed.

Example C06_case : legal demo_st demo_client (OInsert 3 2 None) /\
  match exec (OInsert 3 2 None) demo_st with Exc HIERARCHY_REQUEST_ERR _ => True | _ => False end.
Proof. split; [apply demo_legal; vm_compute; reflexivity|vm_compute; auto]. Qed.

(** ** C07: one root element, one doctype *)

(** For careful clients that insert no fragment into a document. *)
Theorem C07_one_root_partial : forall k s g, reach_doc k s g -> short k ->
  forall d, type_of (s_heap s) d = Some DOCUMENT -> at_most_one (s_heap s) d ELEMENT /\ at_most_one (s_heap s) d DOCTYPE.
Proof. exact one_root. Qed.

Theorem C07_one_root_refuted : exists k s g d, reach_any k s g /\ short k /\
  type_of (s_heap s) d = Some DOCUMENT /\ ~ at_most_one (s_heap s) d ELEMENT.
Proof. exact refuted_roots. Qed.

(** As a side effect of the check the root cannot even be moved. *)
Theorem C07_root_unmovable : exists k s g p c r, reach k s g /\ short (S k) /\ legal s g (OInsert p c r) /\
  parent_of (s_heap s) c = Some p /\ insert_before p c r s = Exc HIERARCHY_REQUEST_ERR s.
Proof. exact root_unmovable. Qed.

Example C07_case : reach_doc 16 demo_st demo_client /\ children (s_heap demo_st) 0 [1].
Proof. exact (conj demo_doc (proj1 (proj2 demo_kids))). Qed.

(** ** C08: permitted nesting *)
Theorem C08_permitted_nesting : forall k s g, reach k s g -> short k ->
  forall c p nc np, s_heap s c = Some nc -> n_parent nc = Some p -> s_heap s p = Some np ->
  n_type nc <> ATTRIBUTE -> nests (n_type np) (n_type nc).
Proof. exact types_nest. Qed.

Example C08_case : parent_of (s_heap demo_st) 7 = Some 6 /\ type_of (s_heap demo_st) 7 = Some TEXT /\ type_of (s_heap demo_st) 6 = Some ELEMENT.
Proof. vm_compute. auto. Qed.

(** ** C10: referenced nodes live *)

(** The counter of a node is the number of references the client owns; whatever
    the client holds is alive, and one call later everything at or below a node
    that is still held is still alive. *)
Theorem C10_referenced_nodes_live : forall k s g, reach k s g -> short k ->
  forall i, (owns g i > 0)%N -> exists n, s_heap s i = Some n /\ n_ref n = owns g i.
Proof. exact held_alive. Qed.

Theorem C10_held_subtrees_survive : forall k s g, reach k s g -> short (S k) ->
  forall o r s' i j, legal s g o -> exec o s = Ok r s' ->
  (owns (account s o r g) i > 0)%N -> live (s_heap s) i -> anc (s_heap s) i j -> live (s_heap s) j -> live (s_heap s') j.
Proof. exact subtree_survives. Qed.

Theorem C10_only_unref_frees : forall k s g, reach k s g -> short (S k) ->
  forall o r s', legal s g o -> exec o s = Ok r s' -> (forall i, o <> OUnref i) ->
  forall j, live (s_heap s) j -> live (s_heap s') j.
Proof. exact others_free_nothing. Qed.

Example C10_case : owns demo_client 2 = 2%N /\ owns demo_client 7 = 2%N.
Proof. vm_compute. auto. Qed.

(** ** C11: no undefined behaviour *)

(** Every call a careful client may make answers or fails cleanly.  Missing for
    the full C11: the calls [legal] excludes, where it is false. *)
Theorem C11_no_undefined_behaviour_partial : forall k s g, reach k s g -> short (S k) -> forall o, legal s g o ->
  (exists r s', exec o s = Ok r s' /\ reach (S k) s' (account s o r g)) \/ (exists e, exec o s = Exc e s).
Proof. exact never_stuck. Qed.

(** Inserting a fragment a second time trips an assertion. *)
Theorem C11_no_undefined_behaviour_refuted : exists k s g o, reach_any k s g /\ short k /\ owning s g o /\ exec o s = Bad AssertFail.
Proof. exact refuted_assert. Qed.

(** A document that is only kept alive by its nodes has lost its name. *)
Theorem C11_unheld_document_refuted : exists k s g d, reach k s g /\ short k /\ holds g d /\
  type_of (s_heap s) d = Some DOCUMENT /\ get_node_name d s = Bad AssertFail.
Proof. exact refuted_zombie. Qed.

Example C11_case : exists g o, reach 16 demo_st g /\ legal demo_st g o.
Proof. exists demo_client, (OUnref 1). split; [exact demo_reach|apply demo_legal; vm_compute; reflexivity]. Qed.

(** ** C12: what dropping a reference frees *)
Theorem C12_unref_frees_exactly : forall k s g, reach k s g -> short (S k) -> forall i, holds g i ->
  exists s', node_unref i s = Ok tt s' /\ reach (S k) s' (lose g i) /\ s_log s' = s_log s /\
    ((owns g i > 1)%N \/ parent_of (s_heap s) i <> None ->
       forall j n, s_heap s j = Some n -> s_heap s' j = Some (if Nat.eqb j i then set_ref (owns g i - 1) n else n)) /\
    (owns g i = 1%N -> parent_of (s_heap s) i = None ->
       (forall j n, s_heap s j = Some n -> n_type n <> DOCUMENT -> dies (s_heap s) i j -> s_heap s' j = None) /\
       (forall j n, s_heap s j = Some n -> orphaned (s_heap s) i j -> s_heap s' j = Some (set_pending true (set_parent None n))) /\
       (forall j n, s_heap s j = Some n -> n_type n <> DOCUMENT -> ~ dies (s_heap s) i j -> ~ orphaned (s_heap s) i j -> s_heap s' j = Some n) /\
       (forall d nd, s_heap s d = Some nd -> n_type nd = DOCUMENT -> (owns (lose g i) d > 0)%N ->
          exists q, s_heap s' d = Some (set_pend q nd)) /\
       (forall j l, children (s_heap s) j l -> live (s_heap s') j -> j <> i -> children (s_heap s') j l) /\
       (live (s_heap s') i -> children (s_heap s') i [])) /\
    (forall j, s_heap s j = None -> s_heap s' j = None).
Proof. exact unref_full. Qed.

(** Non-vacuity: node 1 is held once and parentless, 2 below it is held, 3 is
    not, and 4 below 2 is not held either. *)
Definition c12_run : list op :=
  [ONewDocument; new ELEMENT; new ELEMENT; new TEXT; new TEXT; OAppend 1 2; OAppend 1 3; OAppend 2 4;
   OUnref 3; OUnref 3; OUnref 4; OUnref 4].
Example C12_case : reach 12 (fst (played c12_run)) (snd (played c12_run)) /\ owns (snd (played c12_run)) 1 = 1%N /\
  match node_unref 1 (fst (played c12_run)) with
  | Ok _ s' => (livesb s' 1, livesb s' 2, livesb s' 3, livesb s' 4, kidsn s' 2) = (false, true, false, true, Some [4])
  | _ => False
  end.
Proof. split; [apply (played_reach c12_run); vm_compute; reflexivity|]. split; vm_compute; reflexivity. Qed.

(** ** C13: documents outlive their nodes *)

(** Missing for the full C13: fragments that have been inserted. *)
Theorem C13_document_outlives_partial : forall k s g, reach k s g -> short k ->
  (forall i n d, s_heap s i = Some n -> used g i = false -> n_owner n = Some d ->
     exists nd, s_heap s d = Some nd /\ n_type nd = DOCUMENT) /\
  (forall d nd, s_heap s d = Some nd -> n_type nd = DOCUMENT ->
     (owns g d > 0)%N \/ (exists i n, s_heap s i = Some n /\ n_owner n = Some d /\ n_parent n = None /\ (owns g i > 0)%N)).
Proof. exact (fun k s g R SH => conj (doc_alive k s g R SH) (doc_needed k s g R SH)). Qed.

Theorem C13_document_outlives_refuted : exists k s g i n d, reach k s g /\ short k /\ holds g i /\
  s_heap s i = Some n /\ n_owner n = Some d /\ s_heap s d = None /\
  owning s g (OOwner i) /\ exec (OOwner i) s = Bad UseAfterFree.
Proof. exact refuted_owner. Qed.

(** Non-vacuity: the document survives the client's last reference to it as
    long as node 1 is held, and goes with that. *)
Example C13_case :
  match played [ONewDocument; new ELEMENT; OUnref 0] with (s, _) => (livesb s 0, livesb s 1) end = (true, true) /\
  match played [ONewDocument; new ELEMENT; OUnref 0; OUnref 1] with (s, _) => (livesb s 0, livesb s 1) end = (false, false).
Proof. vm_compute. auto. Qed.

(** ** C14: sibling links *)

(** The siblings of a node with a parent are live and mutual.  Missing for the
    full C14: nodes whose parent was destroyed, where it is false. *)
Theorem C14_sibling_links_partial : forall k s g, reach k s g -> short k ->
  forall i n p, s_heap s i = Some n -> n_parent n = Some p -> n_type n <> ATTRIBUTE ->
  (forall j, n_next n = Some j -> exists m, s_heap s j = Some m /\ n_parent m = Some p /\ n_prev m = Some i) /\
  (forall j, n_prev n = Some j -> exists m, s_heap s j = Some m /\ n_parent m = Some p /\ n_next m = Some i).
Proof. exact siblings_live. Qed.

Theorem C14_sibling_links_refuted : exists k s g i n j, reach k s g /\ short k /\ holds g i /\ s_heap s i = Some n /\
  n_parent n = None /\ n_next n = Some j /\ s_heap s j = None /\ owning s g (ONext i) /\ exec (ONext i) s = Bad UseAfterFree.
Proof. exact refuted_sibling. Qed.

Example C14_case : match s_heap demo_st 2 with Some n => n_parent n = Some 1 /\ n_next n = Some 5 /\ n_prev n = Some 3 | None => False end.
Proof. vm_compute. auto. Qed.

(** ** C23: contains *)
Theorem C23_contains_is_ancestor : forall k s g, reach k s g -> short k -> forall i j, holds g i -> holds g j ->
  exists b, contains i j s = Ok b s /\ (b = true <-> anc (s_heap s) i j).
Proof. exact contains_ancestor. Qed.

Theorem C23_ancestor_antisymmetric : forall k s g, reach k s g -> short k ->
  forall i j, live (s_heap s) i -> anc (s_heap s) i j -> anc (s_heap s) j i -> i = j.
Proof. exact anc_antisym. Qed.

Example C23_case : (match contains 1 7 demo_st with Ok b _ => b | _ => false end,
  match contains 7 1 demo_st with Ok b _ => b | _ => true end, match contains 2 2 demo_st with Ok b _ => b | _ => false end) = (true, false, true).
Proof. vm_compute. reflexivity. Qed.

(** ** C45: mutation events *)

(** insertBefore reports each change once ([C02_insert_before]); removeChild
    reports the removal twice, and replaceChild reports nothing. *)
Theorem C45_insert_events_partial : forall k s g, reach k s g -> short (S k) -> forall p c r s', legal s g (OInsert p c r) ->
  insert_before p c r s = Ok c s' -> exists evs, insert_events (s_heap s) p c r evs /\ s_log s' = s_log s ++ evs.
Proof. exact insert_reports. Qed.

Theorem C45_remove_events_refuted : exists k s g p c s', reach k s g /\ short (S k) /\ legal s g (ORemove p c) /\
  remove_child p c s = Ok c s' /\ ~ exists evs, remove_events (s_heap s) p c evs /\ s_log s' = s_log s ++ evs.
Proof. exact remove_twice. Qed.

Theorem C45_replace_events_refuted : exists k s g p c old s', reach k s g /\ short (S k) /\ legal s g (OReplace p c old) /\ c <> old /\
  replace_child p c old s = Ok old s' /\ s_log s' = s_log s.
Proof. exact replace_silent. Qed.

Example C45_case : match insert_before 2 6 None demo_st with
  | Ok _ s' => skipn (length (s_log demo_st)) (s_log s') =
      [EvRemoved 6 1; EvRemovedDoc 7; EvSubtree 1; EvInserted 6 2; EvInsertedDoc 7; EvSubtree 2]
  | _ => False end.
Proof. vm_compute. reflexivity. Qed.

(** One query for all theorems of this file. *)
Definition tree_theorems :=
  (C01_child_lists_consistent_partial,
   C01_navigation,
   C01_child_lists_consistent_refuted,
   C02_insert_before,
   C02_append_child,
   C03_remove_child,
   C04_replace_child_partial,
   C04_replace_child_refuted,
   C04_root_replaceable,
   C05_no_insertion_beneath_itself,
   C05_no_cycle,
   C06_failures_change_nothing_partial,
   C06_failures_change_nothing_refuted,
   C07_one_root_partial,
   C07_one_root_refuted,
   C07_root_unmovable,
   C08_permitted_nesting,
   C10_referenced_nodes_live,
   C10_held_subtrees_survive,
   C10_only_unref_frees,
   C11_no_undefined_behaviour_partial,
   C11_no_undefined_behaviour_refuted,
   C11_unheld_document_refuted,
   C12_unref_frees_exactly,
   C13_document_outlives_partial,
   C13_document_outlives_refuted,
   C14_sibling_links_partial,
   C14_sibling_links_refuted,
   C23_contains_is_ancestor,
   C23_ancestor_antisymmetric,
   C45_insert_events_partial,
   C45_remove_events_refuted,
   C45_replace_events_refuted).
Print Assumptions tree_theorems.
